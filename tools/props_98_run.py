I = 'src/teflow/interface.py:'
p('C116', 'band --modelling command',
  'The valuation of the chosen model is called with exactly the absolute values of those of the columns S, T, C, N, K the data file has (as dataS, dataT, ...), and for SKB with Eg, the gap given with this command, whatever was run before in the same process; nothing else is passed. SKB without a gap raises RuntimeError, with a gap that is not positive ValueError, both before the data are read; a missing S column (for SKB also a missing T column) raises ValueError and the model is not called; an exception of the model becomes RuntimeError. -p keeps exactly the listed results, in the listed order; unknown names are ignored silently. The output has the input columns first, in the order S, T, C, N, K and with their signs, then the results that are not called like one of them; with --bare only the results. Finding: if no column is left (--bare and -p with unknown names only) or columns differ in length, ValueError is raised. A failing command writes no file.',
  'all data, options, models and histories of such commands in one process', 'arbitrary histories, data and models',
  [I+'do_band', 'src/teflow/utils.py:ExecWrapper', 'src/teflow/bandlib.py:EXECMETA'])
p('C117', 'band simulation command',
  'The configuration is read with exactly those of the options --T, --EF, --deltas, --btypes, --initial, -p that were given, the last value winning if one is repeated. If the configuration names no properties, RuntimeError is raised. Otherwise the file <name>_<suffix>.txt (or the given output file) gets one column per distinct property, in the order of their first occurrences, labelled by the properties. An error while calculating a property is passed on; columns of different lengths, or no property at all, raise ValueError; a failing command writes no file, and no other file is changed.',
  'all options, configurations, models and file systems', 'arbitrary options and property lists with repetitions',
  [I+'do_band', I+'_StoreDict', I+'_to_file'])
p('C118', 'kappa command',
  'A setting is taken from -Q (splitkappa, scattering, spectral, cumulate = false), otherwise from -S (substituted = true), otherwise from the option given last for it, otherwise from the entry section. The predicted conductivities are always written; the scattering rates, the spectral and the cumulative conductivities are written to <name>_rate, <name>_spec, <name>_cumu iff the model is of the Debye kind and the switch is not set to no; the substituted configuration to <name>_subs.cfg iff variables were fitted, the switch is set to yes and the file is not empty. Each of the files holds its own table with its own title, and no other file is changed. Switches are 1/yes/true/on and 0/no/false/off in any case; another text raises ValueError for a switch that is consulted, and then nothing is written. With -Q only the predictions, not split, and the substituted configuration are written, whatever the configuration file says.',
  'all configurations, options and file systems', 'arbitrary settings and tables',
  [I+'do_kappa', 'src/teflow/kappa.py:parse_KappaFit'])
p('C119', 'Which command runs',
  'tef runs the command whose name (interp, mixing, ztdev, engout, format, cutoff, refine, band, kappa) the first argument begins with, in any case, with the remaining arguments. No argument begins with two of the names, so their order does not matter. Anything else, also an abbreviation of a name, shows the help; no arguments show the platform. An empty argument list handed over by the caller counts as absent, and the arguments of the process are used.',
  'all argument lists', 'all words',
  [I+'_do_main'])
