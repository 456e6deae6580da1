Makefile
Makefile.conf
*.vo
*.vok
*.vos
*.glob
.*.aux
.lia.cache
.nia.cache
*.d
.Makefile.d
