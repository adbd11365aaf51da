p('C128', 'interp_gpr with the built-in kernels always has exactly one solution',
  "With the kernels 'rbf' and 'dfx' (in any case of letters; every other name raises ValueError), a non-zero scale and a linear solver that is exact and succeeds on symmetric positive definite matrices, interp_gpr succeeds for all data with distinct x and regular >= 0 (a number or one per point; another number of them raises ValueError), and also for repeated x if regular > 0: the kernel matrix is positive definite exactly if the x are distinct, singular otherwise. The result is f(t) = sum_i c_i K(t, x_i) with the only coefficients for which f(x_i) = y_i - regular_i c_i at every data point; with gradient=True it is exactly the derivative of f; with regular = 0 the data are reproduced.",
  'every number of points, all values, scales and regularisations', 'positive definiteness for every number and position of points',
  ['src/teflow/mathext.py:interp_gpr', 'src/teflow/mathext.py:_interp_gpr', 'src/teflow/mathext.py:_kernel_rbf', 'src/teflow/mathext.py:_kernel_dfx'])
p('C129', 'Regularisation of vinterp(method=gpr) and mapping shifts all data alike',
  "Under the same conditions (distinct points, for mapping distinct pairs; regular a number r >= 0) vinterp(method='gpr') and mapping succeed with a result f(t) = sum_i c_i K(t, x_i), which for vinterp with gradient=True is replaced by its derivative, but f(x_i) = y_i - r sum_j c_j: finding: every data point is missed by the same amount, so that regular does not smooth. The likelihood of mapping is -z.c/2 - ln|A|/2 - N ln(2 pi)/2 with the matrix A that was solved and z.c >= 0. Finding: the documented array of regularisations is added to the columns, so that the matrix handed to a solver for symmetric ones is symmetric only if all its entries are equal; an array of one entry acts like the number, and any other length than the number of points raises ValueError.",
  'every number of points, all values, scales and regularisations', 'positive definiteness for every number and position of points',
  ['src/teflow/mathext.py:mapping', 'src/teflow/mathext.py:_interp_gpr', 'src/teflow/mathext.py:vinterp'])
