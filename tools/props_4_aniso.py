A='src/teflow/anisotro.py'
p('C34','Voigt sequence and matrix forms are inverse',
 "tens2seq(seq2tens(c)) = c for every six components and every use_upper; seq2tens(tens2seq(m)) = m iff m is symmetric, for every use_upper; with use_upper=None it is the symmetric part of m.",
 "all real matrices, all six-tuples", "universal algebraic identity", [A+':tens2seq', A+':seq2tens'])
p('C35','rotate3d computes R C R^T',
 "For every 3x3 matrix R (rotation or not) and symmetric tensor C, rotate3d(R, C) is the Voigt form of R C R^T; hence rotate3d(R2, rotate3d(R1, C)) = rotate3d(R2 R1, C), the identity matrix changes nothing, and a rotation followed by its transpose restores the tensor.",
 "all matrices and tensors", "polynomial identity in 15 variables", [A+':rotate3d'])
p('C36','Rotation invariants',
 "For orthogonal R the trace, the second invariant and the determinant of the tensor are unchanged by rotate3d; positive definiteness is preserved.",
 "all orthogonal matrices and symmetric tensors", "identity over an algebraic variety", [A+':rotate3d'])
p('C37','Axis rotations are proper rotations',
 "For every angle and every non-zero axis vector the matrix rotate3d uses internally is orthogonal with determinant 1 and fixes the axis; 'x','y','z' (any capitalisation, first letter decides) agree with the corresponding unit vectors; scaling the axis vector by a positive factor changes nothing and by a negative factor reverses the rotation; the rotation of vectors is Rodrigues' formula; comb_rotations(a,b) equals rotating by a about y and then by b about z; any other first letter raises ValueError and an empty string IndexError.",
 "all angles, axes, tensors and axis strings", "trigonometric identities for all angles", [A+':rotate3d', A+':comb_rotations'])
p('C38','project3d is the directional value of the tensor',
 "project3d(theta, phi, C) = n^T C n for n = (sin phi cos theta, sin phi sin theta, cos phi), equals the 11 component of the tensor rotated so that n becomes the x axis, and for positive semidefinite C is between 0 and the trace.",
 "all angles and tensors", "identity for all angles", [A+':project3d'])
p('C39','anilay effective-medium bounds',
 "For positive conductivities, anilay gives effective C and K between the smallest and largest layer values in both directions, with vertical (series) <= parallel values, equality iff all layer values are equal; the effective Seebeck coefficients lie between the smallest and largest layer values; reordering the layers or rescaling all widths by a common factor changes nothing. Explicit widths given as a list of >= 1 numbers act as weights (two layers of the same material count as one of the summed width, a layer of width 0 not at all); widths=0 and widths=[] behave like widths=1, and a numpy array of two or more widths raises ValueError. Two arguments of different lengths, neither of them 1, raise ValueError.",
 "any number of layers, all positive values and widths", "means inequality for every number of layers", [A+':anilay'])
