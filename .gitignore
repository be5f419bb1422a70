*.vo
*.vos
*.vok
*.glob
*.aux
.*.aux
.lia.cache
.nia.cache
.nra.cache
Makefile
Makefile.conf
.Makefile.d
