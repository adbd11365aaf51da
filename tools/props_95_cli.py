I = 'src/teflow/interface.py:'
p('C108', 'Interpolating the columns of a data file',
  'The interpolation command takes its sampling points from the first column of the output file if that file exists already; otherwise, if --range start:step:stop is given, it uses start+i*step for all i with i < (stop-start)/step + 0.001, so that a range that hits its end includes the end; otherwise it uses npoints evenly spaced points from the first to the last x (a range of other than three fields raises ValueError). The data reach the interpolation sorted by x, every property value staying with its x, and unchanged if x is already non-decreasing. The output file holds the points and the interpolated columns, or with --bare the interpolated columns only; no other file changes, and a failing command changes no file. An unknown method raises ValueError. Findings: the default method linear (and line) without an extrapolation value always fails, with TypeError if all else is in order; running the command again takes the points of the first run whatever the options say, and after --bare the first property column is taken for the points.',
  'all file systems, data, options, methods and interpolation routines', 'arbitrary data, ranges and repeated runs',
  [I+'do_interp', 'src/teflow/mathext.py:vinterp'])
p('C109', 'Cutting off the columns of a data file',
  'The cut-off command accepts (in any case) the methods fd, fermi-dirac, fermidirac, ss and smoothstep and raises ValueError otherwise - also for its own default method bz, so that it always fails without -m although its help says the default is fd (finding). It multiplies the chosen columns (all but the first by default; negative numbers count from the end; a column chosen twice is multiplied once) of every row by the factor of the first number x of the row, 1/(1+exp(10(x-Tc)/width)) or the smooth step, and leaves the others; with --bare only the chosen columns are written, in the given order. For a positive width the factor is 1/2 at Tc, in [0,1], non-increasing; the smooth step is 1 up to half a width below Tc and 0 from half a width above; the other stays strictly between 0 and 1 and is 1/(1+exp 5) half a width above. A column that is no integer raises ValueError, one outside the row IndexError. A failing command changes no file, and no other file than the output changes.',
  'all tables, column lists, methods and temperatures', 'arbitrary tables and option texts',
  [I+'do_cutoff', 'src/teflow/mathext.py:fermidirac', 'src/teflow/mathext.py:smoothstep'])
