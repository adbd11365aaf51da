I = 'src/teflow/interface.py:'
p('C110', 'Temperatures of formatted data',
  'The format command uses the temperatures in the first column of the output file if that file exists already, whatever the temperature options say. Otherwise it generates them: for a step above 23 K the temperatures are 300 K (unless --no-rt) followed by 323+i*step, otherwise 300+i*step, for i from 0 to the integer nearest to (Tmax-start)/step (the even one of two), where Tmax is the option or, if that is absent or 0, the highest temperature in the data. The series exists, is unique and strictly increasing; its last temperature is within half a step of Tmax whenever Tmax is above start minus half a step, so it may lie beyond the data (finding: 337 K with the default step 25 gives 348 K); with a lower Tmax only 300 K (or nothing) is left, and an empty series raises IndexError and writes nothing, as do (ValueError) data without any temperature if the option gives none.',
  'all data, positive steps, maxima and file systems', 'real-valued steps and maxima and data of all sizes',
  [I+'do_format'])
p('C111', 'Interpolation methods and columns of formatted data',
  'The method option gives one word for all of C, S, K or one for each (further words are ignored); none or two words raise ValueError. A word starting with poly (in any case) selects the polynomial of its last character (finding: poly12 means poly2 and poly means the non-existing polyY); otherwise its first character alone decides: L, C, P, A or a digit 1-9 (37 means poly3); other words raise ValueError. The output has the column T, followed by C, S and K as far as the data have them, each being the data of that property sorted by temperature and interpolated with its method at all the output temperatures; with --calculate a missing one raises ValueError. A failing command changes no file, and only the output file changes.',
  'all option texts, data sets and interpolation routines', 'arbitrary option texts and data',
  [I+'do_format'])
p('C112', 'Calculated columns of formatted data',
  'With --calculate the columns are T, C, S, K, L, Ke, Kp, PF, ZT, ZTave, CF in this order. PF = 1e-6 C S^2, ZT = 1e-4 PF T/K at every temperature; ZTave at the i-th temperature is 1e-6 (int S)^2 (T0+Ti)/2 / (int rho * int K) with trapezoidal integrals from the first temperature and rho = 1e4/C, and equals ZT where the integral of K is at most 1e-3 in magnitude, in particular at the first temperature; for constant properties it is the ZT of the mean of the first and the current temperature; CF satisfies (1 + 1e-6 CF S T)^2 = 1 + ZT. L, Ke, Kp are those of the band model evaluated with the absolute values of T, C, S, K. Finding: if the data set has data of L, the column L does not hold them but the K data interpolated with the method of S (equal to the column K if all methods are the same), Ke and Kp following from it.',
  'all data, temperatures and methods', 'real formulas over tables of all sizes',
  [I+'do_format'])
