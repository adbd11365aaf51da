D='src/teflow/loader.py'
p('C45','Identifiers of a column group',
 "TEdataset.parse_group of a string returns, in order and with multiplicity, exactly the maximal identifiers in it (a capital letter, plus the next character if that is a lower-case letter, digit or underscore) and drops all other characters; every string decomposes into such identifiers and gaps, and for a list of identifiers parse_group of their concatenation is that list.",
 "every string, every list of identifiers", "law over all strings, including adjacent and partial identifiers", [D+':TEdatasetBase.parse_group', D+':TEdatasetBase.PROP_PATTERN'])
p('C46','Electrical quantities of a data set are mutually consistent',
 "For every data set built by TEdataset or TEdataset2: a stored column is returned unchanged by [] and get, and [] of any other key raises KeyError. get of a missing key returns the given default, or raises ValueError without one, unless it is C, R, N or U and derivable from stored columns that share the temperature column (C from R, or from N and U; R from C, or from N and U; N from U and C or R; U from N and C or R). Unless both C and R are stored, the returned C and R satisfy C*R = 10^4 elementwise with the same temperatures; and unless the stored data are over-determined, the returned C, N, U satisfy C = 1.602176634*N*U elementwise with the same temperatures, for columns of equal length; of unequal columns one of a single element stands for a constant, and any other lengths raise ValueError.",
 "every group, every data, every combination of stored columns", "all 16 combinations of stored columns, all values and temperature assignments", [D+':TEdatasetBase._getC', D+':TEdatasetBase._getR', D+':TEdatasetBase._getN', D+':TEdatasetBase._getU', D+':TEdataset.get', D+':TEdataset2.get'])
p('C47','Each property belongs to the nearest preceding temperature column',
 "TEdataset2(data, group) succeeds exactly when no column is named or the first identifier is T, and raises ValueError otherwise. Then for each name other than T and X among the identifiers that have a column, [name] returns the last column of that name together with the T column closest before it; T, X and unnamed keys raise KeyError. For TEdataset, [name] returns the last column of that name (T included), X and unnamed keys raise KeyError.",
 "every group and every number of columns", "positions of T, X and duplicates are arbitrary", [D+':TEdataset2._initialize_data', D+':TEdataset._initialize_data'])
p('C48','Which lines of a data file become rows, and how they split',
 "parse_datafile skips blank lines and lines starting with #; a line 'blanks text blanks [# comment]' contributes the fields of its text; an indented comment line (blanks then #) is NOT skipped but contributes a row made from a single blank. Every line is of exactly one of these kinds. With the default delimiter the text splits at every run of white space, with [\\t;,] at every single separator, empty fields included. The result has as many columns as the longest row has fields, each with one entry per row, missing fields being nan.",
 "every file content", "regular-expression backtracking over all lines", [D+':TEdatasetBase.parse_datafile'])
p('C49','TEdataset2.from_file keeps rows aligned, TEdataset.from_file does not',
 "TEdataset2.from_file pairs a property with its temperature on exactly the rows, in file order, in which every column of the temperature block (from that T to the next T, or to the end of the group, or to the end of the file when there is only one T) is finite; it raises ValueError when the group has no T and refuses files with fewer columns than the position of some T. TEdataset.from_file drops the non-finite entries of each column independently, so after a missing entry the columns no longer refer to the same rows.",
 "every file, every group", "all tables with arbitrary patterns of missing cells", [D+':TEdataset.from_file', D+':TEdataset2.from_file'])
