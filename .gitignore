*.vo
*.vok
*.vos
*.glob
*.aux
.*.aux
*.cache
rocq/Makefile*
rocq/.Makefile*
rocq/.coqdeps*
