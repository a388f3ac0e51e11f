rocq/Makefile*
rocq/.Makefile.d
rocq/.lia.cache
*.vo
*.vok
*.vos
*.glob
*.aux
.nia.cache
.lia.cache
.nra.cache
.csdp.cache
