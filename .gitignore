*.vo
*.vok
*.vos
*.glob
*.aux
*.d
rocq/Makefile
rocq/Makefile.conf
rocq/.Makefile.d
rocq/.lia.cache
.lia.cache
.nia.cache
.nra.cache
.csdp.cache
