D='src/teflow/loader.py'
p('C50','What Compound.from_string reads from any formula',
 "Every (ASCII) text is a prefix without capital letters followed by items, each a name (a capital letter and lower-case letters), optional filler characters (blank _ - ( \\), an optional unsigned decimal number and text without capitals. Compound.from_string returns the names in order of first occurrence, each with the value of its LAST number (1 when the number is missing); a lone '.' as number is the only thing refused (ValueError). The element symbols known are the 118 of the periodic table and the dummy XX. With raise_unknown it returns the same when the first two letters of every name are an element symbol (only those two are looked at) and raises ValueError otherwise; with skip_unknown it returns what the formula without the unknown items gives.",
 "every ASCII formula", "law over all strings including backtracking, overwriting and partial names", [D+':Compound.from_string'])
p('C51','Compound text round trip',
 "For every compound with distinct well-formed names, every style (join, split, origin) and both settings of omit_one, Compound.from_string(c.to_string(...)) gives back the same names, amounts and order, provided the format writes each amount as its exact unsigned decimal. In a compound of one atom a number written with an exponent or a minus sign is silently read back as the mantissa, respectively the absolute value.",
 "every compound, style, omit_one and number format", "round trip over all compounds and formats", [D+':Compound.to_string', D+':Compound.from_string'])
p('C52','Number of atoms and average weight',
 "natom is the integer within 1e-8 of the sum of the amounts if there is one, otherwise the sum itself, so it is always within 1e-8 of the sum. weight_ave times natom is the sum of amount times atomic weight; it exists exactly when the sum of the amounts is at least 1e-8 in size, raises ZeroDivisionError otherwise, lies between the smallest and largest atomic weight for non-negative amounts with an exact sum, raises KeyError if any name is not an element symbol and TypeError for the dummy element XX.",
 "every compound and every table of weights", "all amounts", [D+':Compound.natom', D+':Compound.weight_ave', D+':Compound.weights'])
p('C53','Compound.replace renames exactly one atom',
 "If old occurs and new does not, replace(old, new, match_order=True) renames old in place and leaves every other item, amount and the order unchanged; without match_order the renamed item moves to the end and the others keep their order. If old is missing or new is present KeyError is raised.",
 "every compound, every pair of names", "all positions in all compounds", [D+':Compound.replace'])
p('C54','Alloy.all_sites',
 "For an alloy of Compound sites with non-zero atom numbers, all_sites yields each site once, in order, with its number of atoms and its composition, divided by the number of atoms when regular is true (those fractions then sum to 1), and leaves the alloy unchanged. A site given as a plain dict is not converted: if it comes first UnboundLocalError is raised, otherwise it is silently overwritten by the composition yielded for the preceding site and that is yielded again. Any other site is refused.",
 "every alloy, both settings of regular", "all site lists", [D+':Alloy.all_sites'])
p('C55','Alloy.from_compounds',
 "For compositions with non-zero atom numbers and distinct names, from_compounds makes one site per composition in order; with natoms each composition is scaled to that number of atoms keeping names and ratios, without natoms it is kept as is. Without names the sites are called A, B, C, ..., and more than 26 compositions raise ValueError. If all earlier compositions have atoms, one that is not a mapping raises TypeError, and one without atoms when natoms is given ZeroDivisionError.",
 "every list of compositions, names and atom numbers", "all lists", [D+':Alloy.from_compounds'])
p('C56','Alloy.from_string reads each part of an alloy formula as one site',
 "For a formula made of at most 26 parts, each an element or a parenthesised group followed by an optional number, with pairwise different groups and different elements, whose part compositions are readable, determined and not empty, from_string returns one site per part, named A, B, C, ... in order, holding the part's composition times its number. If a part consists of two or more elements all with amount 1, ValueError is raised. A formula in the OriginLab notation written by to_string(style='origin') is never read: if the text starts with name\\-(number) and no other parenthesis follows (the rest being empty or starting with a capital), from_string does not return, despite the substitution meant to support it.",
 "every formula of the stated form, both unknown-element flags", "parenthesis extraction and textual substitution over all formulas", [D+':Alloy.from_string', D+':Alloy.from_compounds'])
p('C57','Alloy text round trip',
 "For an alloy of at most 26 Compound sites with pairwise different element fractions, Alloy.from_string(a.to_string()) gives the same compositions with the same amounts in the same order (the sites being renamed A, B, C, ...), provided the format writes totals and fractions as exact unsigned decimals, 1 as '1', and the total is not within 1e-8 of a different integer. With omit_one=False (styles join and split) an alloy of one single-element site is written as name, 1, amount without separator (Bi2 becomes Bi12). Of two sites with equal fractions only one part is written, with the amount of the second, so atoms are lost.",
 "every alloy of the stated form and every number format", "round trip over all alloys", [D+':Alloy.to_string', D+':Alloy.from_string', D+':Alloy.all_sites'])
