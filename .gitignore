*.vo
*.vok
*.vos
*.glob
*.aux
.*.aux
.lia.cache
.nia.cache
*.cache
.Makefile.d
Makefile
Makefile.conf
rocq/Makefile*
