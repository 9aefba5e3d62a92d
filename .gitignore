.nra.cache
.nia.cache
.lia.cache
