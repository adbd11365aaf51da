K = 'src/teflow/kappa.py'
p('C94','Variables of a fitting configuration',
 "An entry of section variables is one to be fitted exactly if its text has a question mark preceded by at most one word; written as 'initial ? scale <lower, upper>' with any spacing, every part but the question mark optional, it is read as such with defaults 1, 1, 0 and 1000. Anything after the scale that is not of the form <..,..> (a missing comma or bracket) is silently ignored. A new tag then is a variable with that value, scale and bounds, ValueError if the initial value is outside them; a tag that exists already in the process keeps its old value, bounds and scale. Other entries are numbers, or ValueError. The section as a whole gives every entry under its own tag in file order, and stops at the first that cannot be read.",
 "every text, spacing, number and state of earlier variables", "all strings", [K+':parse_KappaFit', K+':Variable.__new__'])
p('C95','Building a model from the sections of a configuration',
 "A model built from a section carries the name it was asked for by as tag; its parameters are exactly the section's entries its type knows, all required ones among them (a misspelt optional entry is silently ignored). An entry '@ tag' is the variable or constant tag, '@' alone that of the entry's own name, other text a number or else text as it stands; a component list gives the named components in order. No section: NoSectionError; unknown type: TypeError; a missing required entry, a blank entry (even an unknown one) or an undefined variable: never a model, and ValueError if all entries in front of it can be read. Any section except DEBYE with all required and only readable entries succeeds; a DEBYE section whose components can be built succeeds exactly if no component is listed twice and one is a scattering mechanism, else RuntimeError. Reading ends if component lists never lead back to a section; a section that leads back to itself is never finished.",
 "every configuration, name and nesting depth", "all texts and unbounded recursion", [K+':parse_KappaFit', K+':EXECMETA', 'src/teflow/utils.py:ExecWrapper.execute', 'src/teflow/utils.py:CfgParser.pmatch'])
p('C96','Configuration file written back with fitted values',
 "With substituted on (tags without characters special in regular expressions or '#'), the first line of section variables that gives a fitted variable with a question mark keeps what is in front of its '=' and gets ' value # ?' instead of everything through the first '?'; every other line, and the number of lines, stays. Read back, that line gives the same tag with the written number and no variable any more. A fitted variable that no line of the section gives with a question mark (inherited from DEFAULT or interpolated) raises RuntimeError.",
 "every file, any number of variables, all texts", "all files and texts", [K+':parse_KappaFit', 'src/teflow/utils.py:CfgParser.__init__'])
p('C97','Sample points, rows and units of conductivity outputs',
 "Sample points are those of predict, else abs(npoints) evenly spaced points over the data range widened at each end by abs(margin) times its length; without predict and without fitted variables RuntimeError. A Debye model whose section is called DEBYE gives, with splitkappa, the total, one row per mechanism (row i being the conductivity of the first i mechanisms alone, labelled with their names) and one per additional model; the last mechanism row plus the additional rows is the total. Without splitkappa it gives the total only, labelled Kappa-DEBYE. A Debye model of any other name gives a single row, and a model called DEBYE of another type raises AttributeError. frequnit: a number, or by its beginning in any case THz, omega_d/wd/w_d/norm, reduce/x or meV with their physical meaning, anything else silently 2pi.THz; the unit leaves the area under the spectral curve unchanged.",
 "every data set, margin, number of points, list of mechanisms, name and unit text", "all reals, lists and texts", [K+':parse_KappaFit', K+':KappaDebye.__call__'])
