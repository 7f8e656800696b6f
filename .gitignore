*.vo
*.vok
*.vos
*.glob
*.aux
.*.aux
.lia.cache
rocq/Makefile
rocq/Makefile.conf
rocq/.Makefile.d
.Makefile.d
