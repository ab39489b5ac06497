rocq/.lia.cache
.lia.cache
*.cache
*.vo
*.vok
*.vos
*.glob
*.aux
rocq/Makefile*
.*.aux
.Makefile.d
