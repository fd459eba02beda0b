.lia.cache
*.vo
*.vok
*.vos
*.glob
*.aux
.Makefile.d
Makefile
Makefile.conf
.nia.cache
.nra.cache
