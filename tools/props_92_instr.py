L = 'src/teflow/loader.py'
p('C98','Files of CTA and ZEM instruments',
 "A text for CTA or ZEM (in place, or 'file:' and a path, whose content is taken as it is; a missing file raises FileNotFoundError) is read from behind the first line that contains all titles of that instrument (none: IOError). Each following line, blanks around it removed, with at least five tab-separated cells gives a row from cells 1, 2 and 5 - temperature plus 273 (not 273.15), resistivity, Seebeck coefficient, both times 10^6 for ZEM and unchanged for CTA - in the order of the lines; shorter lines give nothing, and one unreadable number among these cells raises ValueError. Because blanks (tabs too) at the beginning of a line are dropped, a row with an empty first cell is shifted to the left instead of being rejected.",
 "every text, every line and every number", "all strings", [L+':parseCTA', L+':parseZEM', L+':_parse_CTA_ZEM', L+':_registerInstr'])
p('C99','Files of laser flash instruments',
 "A text for LFA is read from behind the first line that begins with '##Results' (none: IOError), leaving out one title line. Lines that begin with '#Mean' give temperature plus 273 and diffusivity from the second and third of their non-empty comma-separated cells, if there are three (unreadable: ValueError); if there is any such row, only those are returned. Otherwise every line with at least three cells, empty ones counted, gives them from its second and third cell (unreadable: IOError), possibly nothing at all. Laser flash data cannot be written in place in a configuration: since lines that begin with # are comments there, such a value always raises IOError (unless the # directly follows the equals sign).",
 "every text, every line and every number, every configuration value", "all strings", [L+':parseLFA', L+':_registerInstr', 'src/teflow/utils.py:CfgParser.__init__'])
p('C100','Data sets assembled from instrument files',
 "parse_TEfile returns R and S with the temperatures of the one instrument (ZEM or CTA), and A and K with the temperatures of the LFA file; K is diffusivity times density times heat capacity, element by element. Overrides (specify) win over the file. Missing section entry: KeyError; missing sample, no or two instruments, missing LFA, missing density: ValueError, in this order. Heat capacity: without Cp, or with Cp ending in @Dulong-Petit, @DP or @3R, the constant 3R/weight - numbers in front of the @ are read and then ignored; @Mg3Sb2 raises NotImplementedError, other names ValueError; a list of numbers must have exactly one number per LFA temperature (a single number is not repeated), else ValueError.",
 "every configuration, override and file content", "all configurations and texts", [L+':parse_TEfile', L+':parse_CpT'])
