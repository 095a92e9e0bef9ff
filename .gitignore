*.cache
.lia.cache
.nia.cache
