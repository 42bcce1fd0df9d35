.lia.cache
.lia.cache
.nia.cache
.nra.cache
