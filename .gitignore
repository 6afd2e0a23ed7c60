*.vo
*.vok
*.vos
*.glob
*.aux
.lia.cache
.nia.cache
.*.cache
Makefile
Makefile.conf
.Makefile.d
*.d
