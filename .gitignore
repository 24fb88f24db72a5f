*.vo
*.vok
*.vos
*.glob
*.aux
.nia.cache
.lia.cache
.Makefile.d
rocq/Makefile
rocq/Makefile.conf
.nra.cache
