*.vo
*.vok
*.vos
*.glob
.*.aux
Makefile
Makefile.conf
.Makefile.d
.lia.cache
.nia.cache
.nra.cache
.nia.cache
.lia.cache
