M='src/teflow/mathext.py'
p('C12','split_monotonic partitions the steps of an array into maximal monotone intervals',
 "For every array x and eps >= 0, split_monotonic(x, trend, ends, eps) returns index ranges, disjoint (in terms of steps) and increasing, such that with ends='both' each returned interval starts and ends with a step of its own sign larger than eps, contains no step of the opposite sign larger than eps, cannot be extended by later steps, and every step larger than eps in magnitude (of the requested trend) lies in exactly one interval; ends = left/right/none drop exactly the last/first/both points of the 'both' interval. Another first letter of ends or trend raises ValueError, an empty one IndexError. With trend='#pattern' every match of the pattern among the steps written as letters A, D, S becomes one interval with the sign of its first step, and a pattern with an empty match raises IndexError.",
 "every array length and content, eps >= 0, every trend in {both, ascending, descending} and ends value",
 "correctness depends on the leftmost-greedy regex matching over unboundedly long sign strings",
 [M+':split_monotonic'])
p('C13','mixing is the weighted mean',
 "mixing(datas, weight) of float arrays of equal shape returns sum_i w_i*d_i/sum_i w_i elementwise (times scale*sum w when scale is given); with non-negative weights of positive sum each element lies between the smallest and largest corresponding element; equal inputs are reproduced; for at least one data set ValueError iff the numbers of weights and datas differ or shapes differ; with no data set at all IndexError (ValueError if weights are given).",
 "every number of datas, every length, all real weights and values",
 "universally quantified numeric law over arrays of all sizes",
 [M+':mixing'])
p('C14','fermidirac is a strictly decreasing bijection with its inverse',
 "fermidirac(x) = 1/(1+e^x) lies strictly between 0 and 1, is strictly decreasing, satisfies f(-x) = 1-f(x); fermidirac(y, inverse=True) = ln(1/y-1) for 0<y<1, and the two are mutually inverse; the inverse form clips its argument to [0,1] first.",
 "every real argument", "real-analytic identity for all arguments",
 [M+':fermidirac'])
p('C15','smoothstep and its inverse, shifted and unshifted',
 "smoothstep(x, shift=False) is 0 below 0, 1 above 1 and 3x^2-2x^3 between, non-decreasing with values in [0,1]; smoothstep(x, shift=True) equals smoothstep((1-x)/2, shift=False) for every x; for every y in [0,1] smoothstep(smoothstep(y, inverse=True, shift=s), shift=s) = y, and conversely the inverse recovers every x in the active interval.",
 "every real x, every y in [0,1], both shift values",
 "trigonometric inverse of a cubic: identity for all reals",
 [M+':smoothstep'])
p('C16','Kernels of the GPR interpolation',
 "The built-in kernels satisfy K(u,u)=1, K(u,v)=K(v,u), 0<K(u,v)<=1 for every u, v and non-zero scale; 'dfx' equals 4e^t/(1+e^t)^2 with t=(u-v)/s as documented; with gradient=True they return exactly the derivative of K with respect to the first argument.",
 "every real u, v and scale != 0", "derivative identity over the reals",
 [M+':_kernel_rbf', M+':_kernel_dfx'])
p('C17','interpx: interpolation and linear extrapolation',
 "For strictly increasing x of length >= 2 and an array of points xp (single numbers: C122), interpx(x,y,xp) passes through every node, lies on the chord of the two neighbouring nodes between nodes, and on the straight line through the two first (last) nodes left (right) of the range; data on a straight line is reproduced exactly for every xp; with left/right given, that value is returned outside the range instead, and inside the range nothing changes; inside the range the value is between the two neighbouring y values.",
 "every number of nodes, all node values, every query point",
 "all data sets, all query points incl. boundary points",
 [M+':interpx', M+':_interpx'])
p('C18','vinterp does not depend on the order of the data points',
 "With reorder=True, permuting the data points (x_i, y_i) with distinct x does not change the result of vinterp for any method; reorder=False raises ValueError iff some x decreases; a length mismatch or non-finite value raises ValueError before anything else.",
 "every data set with distinct x, every permutation, every interpolation method",
 "all permutations of all data sizes",
 [M+':vinterp'])
p('C19','Error metrics',
 "For equal-length non-empty y, y2: MSE >= 0 with equality iff y = y2, symmetric; RMSE = sqrt(MSE); MAE <= RMSE and MAE, RMSE satisfy the triangle inequality; SMAPE is symmetric and within [0,2] (entries not both zero); MAPE is the mean of |y2/y-1|; Metric(kind) accepts the kind names case-insensitively and rejects everything else with ValueError.",
 "all lists of reals of equal length, all kind strings", "inequalities over vectors of every length",
 [M+':Metric'])
p('C20','GPR interpolation reproduces the data; regularisation of vinterp/mapping and array scales differ from the documentation',
 "With regular=0, a scalar scale and any non-singular kernel matrix for which the linear solve is exact, interp_gpr and vinterp(method='gpr', kernel=...) return y_j at xp = x_j for every data set, and mapping returns z_j at (x_j, y_j). With scalar regularisation r, interp_gpr solves with K + r*I (as documented), whereas vinterp(method='gpr', regular=r) and mapping(..., regular=r) add r to EVERY entry of the kernel matrix: the matrices solved are equal iff r = 0 or there is at most one point, and the predicted values can differ. vinterp(method='gpr') without an explicit kernel raises TypeError. A one-dimensional scale matching the length of x (as documented; at least two points) never gives a result unless the number of query points equals the number of data points.",
 "every number of points, every kernel matrix, every r",
 "linear-algebra identity for all sizes",
 [M+':interp_gpr', M+':_interp_gpr', M+':mapping', M+':_interp_vect'])
