p('C135', 'A killed command leaves part of its files, running it again repairs them, except for interp and format',
  "A command reads and computes everything before it opens its first file for writing (refine: it writes line by line what it has read), then writes its files one after the other. "
  "If the process is killed while it writes: every file that is not one of its outputs is unchanged; the outputs are, in the order in which they are written, first complete ones, then at most one whose content is "
  "a beginning of what it should be (possibly empty), then ones that are as they were before; each of these states can occur. In particular (finding) an existing output file is emptied when it is opened, so its old content is lost "
  "although the new one is not there yet: nothing is written to a temporary file and renamed. "
  "Running refine, mixing --extend, cutoff, ztdev, engout, band (both forms) or kappa again with the same options after any number of such kills gives the same files and the same outcome as one undisturbed run, provided no output is one of the inputs. "
  "interp and format are different (finding): they read an existing output file for the points at which they sample, so after a kill they fail every time if what is left cannot be read or holds no column, and otherwise sample at "
  "the points that are left, whatever the options say; removing the partial outputs first gives the result of the undisturbed run (if the output was not there before). "
  "A partial table read back gives an error, or the first rows unchanged, or the first rows and one more row whose last number was cut; such a last row has all its columns unless it is the only row. The reader may accept the cut number (finding): "
  "one in fixed-point format (%.4f, %.6f) then keeps its sign and does not become larger in size; one in scientific format (%.6E, band simulation) may become larger, e.g. 1.000000E-05 read as 1.",
  'all disks, all sets of files a command writes, all moments at which the process is killed and all amounts of text handed to the system until then, any number of killed attempts, all options of the commands, all tables and all places where a file may be cut',
  'a test kills a process at a few moments; the claim is about every reachable state of the disk, after any number of kills, and about every prefix of every file',
  ['src/teflow/interface.py:_to_file', 'src/teflow/interface.py:do_interp', 'src/teflow/interface.py:do_mixing', 'src/teflow/interface.py:do_ztdev', 'src/teflow/interface.py:do_engout', 'src/teflow/interface.py:do_format', 'src/teflow/interface.py:do_cutoff', 'src/teflow/interface.py:do_refine', 'src/teflow/interface.py:do_band', 'src/teflow/interface.py:do_kappa'])
