.lia.cache
*.nia.cache
*.lia.cache
.nia.cache
.lia.cache
