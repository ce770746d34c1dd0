#!/usr/bin/env python3
"""Generates rocq/theories/ObsTable.v from /repo/palObs.c (table telData)."""
import re
src=open('/repo/palObs.c').read().split('\n')
i0=next(i for i,l in enumerate(src) if 'const struct telData telData[]' in l)
i1=next(i for i in range(i0,len(src)) if src[i].strip()=='};')
rows=[];cur=None
for i in range(i0+1,i1):
    l=src[i].strip()
    if l=='{': cur=(i+1,[])
    elif l in ('},','}'): rows.append(cur); cur=None
    elif cur is not None and not l.startswith('/*'): cur[1].append(l)
def ang(s):
    m=re.match(r'(WEST|EAST|NORTH|SOUTH)\((\d+),(\d+),([\d.]+)\),$',s); assert m,s
    sec=m.group(4)
    if sec.endswith('.'): sec+='0'
    return "%s %s %s %s"%(dict(WEST='West',EAST='East',NORTH='North',SOUTH='South')[m.group(1)],int(m.group(2)),int(m.group(3)),sec)
out=['(** * The station table of palObs.c:%d-%d, generated by tools/obs_table.py. *)'%(i0+1,i1+1),
'From Coq Require Import ZArith List String.','From Verif Require Import Num.','Import ListNotations.','Local Open Scope string_scope.','',
'(** the macros WEST, EAST, NORTH, SOUTH of palObs.c:168-171 and their arguments *)',
'Inductive angle : Set := West (d m : Z) (s : Dec) | East (d m : Z) (s : Dec) | North (d m : Z) (s : Dec) | South (d m : Z) (s : Dec).',
'(** struct telData, palObs.c:173-179 *)',
'Record tel : Set := Tel { t_w : angle; t_p : angle; t_h : Dec; t_short : string; t_long : string }.','',
'Definition telData : list tel := [']
for k,(ln,r) in enumerate(rows):
    w,p,h,s,l=r
    h=h.rstrip(','); m=re.match(r'([\d.]+)(?:E0)?$',h); assert m,h
    hv=m.group(1); 
    if hv.endswith('.'): hv+='0'
    s=s.rstrip(','); 
    assert s[0]=='"' and l[0]=='"'
    out.append('  (* palObs.c:%d *) Tel (%s%%dec) (%s%%dec) (%s)%%dec %s %s%s'%(ln,ang(w).rsplit(' ',1)[0]+' '+ang(w).rsplit(' ',1)[1],ang(p),hv,s,l.rstrip(','),';' if k<len(rows)-1 else ''))
out.append('].')
open('/verif/rocq/theories/ObsTable.v','w').write('\n'.join(out)+'\n')
print(len(rows))
