M='src/teflow/mathext.py:'
U='src/teflow/utils.py:'
p('C120', 'vquad: broadcasting quadrature',
  'The results of vquad have the common shape of a, b, where, fill_value and args: the smallest shape all of them can be broadcast to, i.e. (counted from the last axis) the one dimension different from 1, or 1. At every position where the mask is true, value and error are those of one quadrature with the limits and arguments that position sees; everywhere else the value is the fill value and the error 0, and the integrand is not evaluated there. If a quadrature fails, the error of the first failing position, the last coordinate running fastest, is raised. Shapes without a common shape raise ValueError.',
  'all shapes, arrays, masks and integrands (every quadrature routine)', 'arbitrary numbers of dimensions and arguments',
  [M+'vquad'])
p('C121', 'Interpolation methods and vinterp on arrays',
  'The method linear, line, cubic, pchip and spline are recognised exactly as written, akima and gpr in any case, and every word beginning with poly (in any case) and ending with a digit means a polynomial; the degree is the last character alone (finding: poly10 has degree 0, poly12 degree 2); every other text raises ValueError. Axes of length 1 of x and y disappear first, and each array has exactly one such form. Then the last axis of y has to be as long as x, which has to have one axis (so a single data point raises ValueError), and the result has the remaining axes of y followed by all axes of xp (finding: leading axes of length 1 of y are lost); its element at i,j is what the method gives for row i of y, rearranged together with x by increasing x, at the point j of xp; x that is in increasing order reaches the method unchanged, with or without reorder. NaN, infinity, different lengths, decreasing x with reorder=False, an unknown method and a y without any row raise ValueError; a y with a single element raises IndexError (finding); an error of the method on the first failing row is passed on.',
  'all arrays, methods and results of the methods', 'arbitrary numbers of dimensions, all method names',
  [M+'vinterp', M+'_interp_vect'])
p('C122', 'interpx on arrays',
  'x and y, after axes of length 1 have disappeared, have to have one axis, of the same length, at least 2: otherwise ValueError, and only then. The result has the shape of xp, and its element at every index of xp is the value at that point: on the chord of the interval that contains it, on the extension of the first or last chord, or the value given for that side. Finding: a single number xp outside the range raises TypeError unless a value is given for that side; inside the range, or with a value given, it works.',
  'all arrays of at least two strictly increasing nodes, all arrays of points', 'arbitrary shapes',
  [M+'interpx', M+'_interpx'])
p('C123', 'Arrays in configuration files',
  'The numbers of an array entry are, blanks around them removed, the content of the file whose name follows file:, or the text after array:, or the whole text if it has neither prefix (prefixes in small letters only). The result lists the columns: number k of column j is number j of the k-th row that is neither blank nor a comment. Rows of different lengths or a word that is not a number raise ValueError, a file that does not exist raises FileNotFoundError.',
  'all entries with at least one row of numbers, all file systems', 'arbitrary texts and numbers of rows and columns',
  [U+'CfgParser.parse_array'])
