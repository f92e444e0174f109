*.vo
*.vok
*.vos
*.glob
.*.aux
.lia.cache
Makefile
Makefile.conf
.Makefile.d
