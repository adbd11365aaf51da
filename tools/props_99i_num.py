p('C134', 'Numbers in files: what is printed, what is read back',
  'A number is printed in the format %.4f (or %.6f) as an optional minus sign, digits without superfluous zeros in front, the point and exactly that many digits, which are those of the nearest multiple of the last place (of two equally near ones the even one); in the format %.6E as one digit, which is 0 for zero only, the point, six digits and a signed exponent of at least two digits, rounded in the same way; each text is determined by the number. Printed texts contain no blank and no #. A text without underscores is read as a finite number exactly when it is a decimal literal with blanks around it, and then as the number it denotes; underscores between two digits are ignored, any other underscore and any other text that cannot be read is a ValueError. So a printed number is read back as the rounded number, nan and the infinities as themselves, and a data file with a comment header or none as the table of the rounded numbers. The error is at most half a unit of the last place (fixed) or half of 10^-6 of the number (scientific); the order of numbers is kept; printing what was read gives the same text. Findings: with %.4f every number of at most 0.00005 in size is read back as 0, numbers closer than one unit of the last place can become equal, and a negative number rounded to zero is printed as -0.0000, whose sign is lost on reading.',
  'every number, number of digits, text, and table of numbers',
  'the number of values and texts is unlimited; halfway cases, carries into a new digit (9.9999999 to 1.000000E+01) and exponents of three digits are easily missed by examples',
  ['src/teflow/interface.py:_to_file', 'src/teflow/interface.py:do_ztdev', 'src/teflow/interface.py:do_engout', 'src/teflow/interface.py:do_cutoff', 'src/teflow/interface.py:do_band', 'src/teflow/interface.py:do_kappa'])
