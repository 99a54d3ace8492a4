.nra.cache
.lia.cache
.nia.cache
.csdp.cache
