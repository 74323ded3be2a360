*.glob
*.vo
*.vok
*.vos
.*.aux
.Makefile.d
.lia.cache
.nia.cache
rocq/.Makefile.d
rocq/Makefile
rocq/Makefile.conf
