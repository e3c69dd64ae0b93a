*.vo
*.vok
*.vos
*.glob
*.aux
Makefile
Makefile.conf
.lia.cache
.nra.cache
.nia.cache
.Makefile.d
*.d
