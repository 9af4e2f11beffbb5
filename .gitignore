*.vo
*.vok
*.vos
*.glob
.*.aux
.lia.cache
.nia.cache
rocq/Makefile
rocq/Makefile.conf
rocq/.Makefile.d
rocq/.*.cache
.nra.cache
.nlia.cache
