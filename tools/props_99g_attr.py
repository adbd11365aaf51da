p('C132', 'Dot access on AttrDict: reads items, but assignment makes a second, hidden value',
  "For every history of d[k]=v, del d[k], d.k=v and del d.k on an AttrDict: d[k] is determined by the item statements alone. For a name the class does not define, d.k is the value last assigned with a dot and not deleted since, else the item d[k], else KeyError; so dots and brackets agree as long as nothing is assigned with a dot, and disagree afterwards until del d.k, which raises AttributeError for a key that was only stored. A key named like a method is hidden behind it for dots. A property is computed from the current items and can be neither assigned nor deleted; an AttributeError inside it turns into the item of that name or KeyError. Finding: dot access never raises AttributeError, so hasattr of a missing name raises KeyError and is never False, and the default of getattr is never used.",
  'every name, class, initial dictionary and history of statements', 'must hold after every history of statements',
  ['src/teflow/utils.py:AttrDict', 'src/teflow/utils.py:AttrDict.__getattr__'])
