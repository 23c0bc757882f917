*.vo
*.vok
*.vos
*.glob
*.aux
.*.aux
*.lia.cache
.lia.cache
.nia.cache
Makefile
Makefile.conf
.Makefile.d
.nra.cache
