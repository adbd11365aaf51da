p('C101', 'A band of a configuration is built from the entries its type knows',
  "parse_Bands: for each word of the entry 'bands' the first section called like the word or word.type is taken; every one of its values must read as a number (also values of entries that are then ignored), else ValueError; without such a section NoSectionError; an unknown type is a KeyError. The constructor of the type gets exactly the entries it knows (others are dropped without a message), with the numbers given, nothing for absent ones; an absent required entry is a ValueError and a failing constructor a RuntimeError.",
  'all configurations, names, contents, number readers and constructors',
  'sections, entries and texts are unbounded; the order of the failures and the silent dropping depend on the whole configuration',
  ['src/teflow/bandlib.py:parse_Bands', 'src/teflow/bandlib.py:EXECMETA', 'src/teflow/utils.py:CfgParser.pmatch', 'src/teflow/utils.py:ExecWrapper.execute'])
p('C102', 'Offsets and types of the bands of a configuration',
  "parse_Bands: 'bands' is required (ValueError). Bands appear in the order of the words, each a new object with the offset at its place (zeros without 'deltas'); a different number of offsets is a ValueError. One type applies to all bands; with two or more types exactly so many bands are kept and the others are dropped silently; a 'btypes' entry without any word gives a model without bands (after the types could be guessed, else ValueError). Without 'btypes' the types follow from all offsets: positive conduction, negative valence, offsets near zero with the only clear side, otherwise ValueError - hence leaving out both 'deltas' and 'btypes' is a ValueError for every non-empty list of bands, although the code has a default for deltas. A used word that names neither type, or a used object that is no band, is a ValueError.",
  'all configurations, all lists of bands, offsets and type words',
  'the outcome depends on all offsets and types together, for lists of any length',
  ['src/teflow/bandlib.py:parse_Bands', 'src/teflow/bandlib.py:MultiBands', 'src/teflow/bandlib.py:MultiBands.guess_btypes'])
p('C103', 'Temperatures, Fermi energies and compilation in parse_Bands',
  "Overrides replace entries of the section 'entry' (the last one counting), a missing section is a KeyError. Without T, or without EF, the model comes back uncompiled and without properties. EF without @ gives numbers paired with T one by one, a single number being repeated; lengths that do not fit are a ValueError. EF 'data @ quantity' (before the first @, after the last @, blanks around removed) is solved for every pair from the entry 'initial' (0 without it); one failing pair, or an 'initial' that is no number, is a RuntimeError. The model returned is compiled: for every pair every property gives, whatever arguments are passed, the number the uncompiled model has at that Fermi energy and temperature. The properties are the words of the entry or T EF N C S PF L Ke. A model with a band that has no Hall function (LinearBand) ends in a TypeError.",
  'all configurations, temperatures, Fermi energies, solvers and band functions',
  'quantifies over arbitrary band functions, pairs and texts',
  ['src/teflow/bandlib.py:parse_Bands', 'src/teflow/bandlib.py:MultiBands.compile', 'src/teflow/bandlib.py:BaseBand.solve_EF', 'src/teflow/bandlib.py:LinearBand'])
