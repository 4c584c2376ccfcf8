rocq/.lia.cache
.lia.cache
.nra.cache
.lia.cache
.nia.cache
