I = 'src/teflow/interface.py:'
p('C104', 'Names of generated output files',
  'A command given a non-empty output name uses exactly that name. Otherwise the name is formed from the last component of the path of the input file: what is in front of its extension (the part from the last dot, if something is in front of and behind that dot), an underscore, the suffix, and the extension - replaced by the one of the command if it has one and the input has an extension; an input without extension gives an output without extension. The generated name has no directory (the file goes to the current directory) and is never the path or the name of the input file. Findings: inputs of the same name in different directories, or that differ only in the extension where it is replaced, get the same output name. The five files of one kappa run have different names, so none overwrites another.',
  'all paths ending in a proper name, all suffixes, extensions and output options', 'file names are arbitrary texts; the absence of a collision is a statement about all of them',
  [I+'_suffixed', I+'do_kappa'])
p('C105', 'Refining a data file',
  'refine without columns writes one line for every line of the input with at least one word in front of a #, in order, its words separated by one blank; read again, the output has exactly the rows of the input, and refining it again gives the same text. With columns it writes for every row the words of those columns in the given order, negative numbers counting from the end. A row that lacks a column ends the command with IndexError after the rows in front of it have been written (finding: a truncated output file remains). A missing input raises FileNotFoundError and a column that is not an integer ValueError, before any file is touched. No other file changes.',
  'all input texts, column lists, headers and file systems', 'texts of all sizes and layouts of blanks, comments and empty lines',
  [I+'do_refine'])
p('C106', 'Putting data files side by side',
  'mixing --extend writes rows whose words are those of the i-th rows of all inputs one after the other (comments and blank lines left out); the number of rows is that of the shortest input, the rest of longer inputs being dropped silently (finding). --raw-extend joins the lines themselves, comments and blank lines included, blanks around them removed, by one blank, up to the shortest input. With --padding the number of rows is that of the longest input, and below a shorter input its words are replaced by the padding repeated as often as its last row has words (not at all for an input without rows); --raw-extend then has no effect (finding); if all inputs are rectangular, so is the output. A missing input raises FileNotFoundError before any file is touched. No other file changes.',
  'all numbers and texts of the input files, all labels without newline, all padding words', 'number, sizes and layouts of files are unbounded',
  [I+'do_mixing'])
p('C107', 'Weights and scale of a mixture',
  'The weights text of mixing is read digit by digit if it consists of digits only - "10" means the two weights 1 and 0, and for a single file it raises ValueError (finding) - and otherwise as numbers separated by blanks, a word that is no number raising ValueError. Without weights all files count the same. If the absolute value of the scale is below 1e-4 (as by default) the result is the weighted mean, elementwise; otherwise the scale times the weighted sum; by default the plain mean of the files. A number of weights different from the number of files raises ValueError for texts of digits.',
  'all weight texts, scales, numbers of files and data of equal shapes', 'all texts and arrays of all sizes',
  [I+'do_mixing', 'src/teflow/mathext.py:mixing'])
