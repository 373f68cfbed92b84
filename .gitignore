*.vo
*.vok
*.vos
*.glob
*.aux
.*.aux
Makefile
Makefile.conf
.Makefile.d
.lia.cache
.nia.cache
*.cache
.lia.cache
.nra.cache
.lia.cache
.nia.cache
.lra.cache
*.cache
