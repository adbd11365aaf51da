for i in range(1, 144): c('C%02d' % i)

