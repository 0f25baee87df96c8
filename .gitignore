Makefile
Makefile.conf
.Makefile.d
*.vo
*.vok
*.vos
*.glob
.*.aux
*.cache
.lia.cache
