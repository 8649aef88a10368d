*.cache
.nia.cache
