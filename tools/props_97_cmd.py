I = 'src/teflow/interface.py:'
p('C113', 'Number files written by the commands',
  'A file written with default options consists of a line "#title - time program", a line "#" with the labels two blanks apart if there are any labels, and one line of numbers, a blank apart, per row. --bare leaves only the lines of numbers, whether or not --headers is given. --headers writes the labels (the caption if there are no labels) as the first line without "#", and the caption is lost. Loading a default or bare file gives back exactly the rows of the values that were printed. Finding: the file written with --headers has the labels as its first data row, so loading it, as every other command does, raises ValueError if any label is not a number. Loading a file whose rows differ in length raises ValueError as well.',
  'all titles, labels, tables and number formats that print words without blanks and #', 'tables of all sizes, all labels and formats',
  [I+'_to_file', I+'OPTS'])
p('C114', 'ztdev command',
  'For a file with at least four columns T, C, S, K (further ones are ignored) the command writes one row (T0, Ti, Yita, ZTdev) per temperature, where Yita is the efficiency profile of the optimisation for the given data and ZTdev = ((Ti-T0(1-y))/(Ti(1-y)-T0))^2-1 with y = Yita/100, or 0 where that denominator is at most 1e-3 in magnitude; the first row has Yita = 0. With --yita the first three columns are Tc, Th, Yita and only ZTdev is added, row by row. Fewer columns raise ValueError, a missing file FileNotFoundError, and errors of the optimisation are passed on; no file is changed then, and otherwise only the output file, whose first two lines are comments unless --bare.',
  'all data files, minimisers and file systems', 'real tables of all sizes and arbitrary minimisation routines',
  [I+'do_ztdev', 'src/teflow/ztdev.py:valuate'])
p('C115', 'engout command',
  'For a file of exactly four columns T, C, S, K (resistivities instead of C with --resistivity) with increasing temperatures the command writes, for every temperature but the first, the row (T0, Ti, PFeng, ZTeng, Pout, Yita) with PFeng = 1e-6 (int S)^2/int rho, ZTeng = PFeng (Ti-T0)/int K, Pout = 1e-3 PFeng (Ti-T0) 100/(4L) and Yita the efficiency at the reduced current 1/(1+sqrt(1+Zeng(2<TS>/<S> - <T rho>/<rho>))), all integrals being trapezoidal sums over the rows up to Ti. With --pair the file has at least seven columns T C S K C S K; the leg with the smaller mean S is the n-leg (the second one if the means agree), so the order of the legs in the file does not matter if the means differ; the couple has S = Sp-Sn, rho = (1+a)(rho_p+rho_n/a), K = (K_p+a K_n)/(1+a) with the section ratio a = sqrt(rho_p K_n/(rho_n K_p)) for ZTeng and Yita and a = sqrt(rho_p/rho_n) for PFeng and Pout. Too few columns and a length that is not positive raise ValueError; findings: a single leg with more than four columns raises ValueError although at least four are asked for, and a file of one row raises IndexError. A failing command changes no file; only the output file is written, with two comment lines unless --bare.',
  'all data files, lengths and file systems; integrals of rho and K non-zero (positive for couples), of S non-zero (different)', 'real tables of all sizes and lengths',
  [I+'do_engout', 'src/teflow/engout.py:GenLeg.valuate', 'src/teflow/engout.py:GenPair.valuate'])
