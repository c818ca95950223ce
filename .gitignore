.lia.cache
.nia.cache
.nra.cache
*.vo
*.vok
*.vos
*.glob
*.aux
.Makefile.d
rocq/Makefile
rocq/Makefile.conf
