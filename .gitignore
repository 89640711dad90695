*.vo
*.vok
*.vos
*.glob
*.aux
.*.aux
.*.cache
*.vio
Makefile*
.Makefile*
