*.lia.cache
.lia.cache
.nia.cache
