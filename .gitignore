*.vo
*.vok
*.vos
*.glob
*.aux
.lia.cache
.nia.cache
.csdp.cache
.nra.cache
