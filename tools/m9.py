ns={}; exec(open('/tmp/mut/m7.py').read(),ns); A={x['id']:x for x in ns['MUTS']}
ns={}; exec(open('/tmp/mut/m8.py').read(),ns); A.update({x['id']:x for x in ns['MUTS']})
MUTS=[A[i] for i in 'WO02 WO01 RX01 PX01 IX02 VX04 LX03 CL02 RX03 TX02 VL02 SX02 GR04 IX04 CL04 PX02 LX04 VX01 GR14 RX04 TX04 VL04 CL03 RX02 IX03 VX07 SX03 LX05 GR10 GR01'.split()]
