# (file, definition, old, new, claim): edits aimed at C94-C99 - mostly invisible in exact arithmetic (NaN comparisons, guards
# against division by zero and atan2(0,0)), and edits of the refinement loop of palUe2pv that only slow or stop convergence
MUTANTS = [
 ('M_Refr.v','palRefro_fuel','DMIN (fabs zobs1) rfD93','DMIN rfD93 (fabs zobs1)','what palRefro does with a NaN zenith distance'),
 ('M_Refr.v','palRefro_fuel','DMIN (DMAX tdk #100.0) #500.0','DMIN #500.0 (DMAX #100.0 tdk)','what palRefro does with a NaN temperature'),
 ('M_Sphere.v','palDs2tp','if denom >? TINY then','if negb (denom <=? TINY) then','status of palDs2tp for NaN'),
 ('M_Orbit.v','palPv2ue','if pmass <? #0.0 then','if negb (pmass >=? #0.0) then','palPv2ue lets a NaN mass through'),
 ('M_Orbit.v','ue_halve','if fabs beta >? #0.7 then','if negb (fabs beta <=? #0.7) then','palUe2pv returns for a NaN date'),
 ('M_Orbit.v','ue_iter','if fabs w >=? tol then','if negb (fabs w <? tol) then','palUe2pv status for NaN'),
 ('M_Orbit.v','ue_iter','ff * flast <? #0.0','ff * flast >? #0.0','convergence of palUe2pv'),
 ('M_Orbit.v','palUe2pv','let psi := u_psi u + (date - u_t u) * GCON / u_r0 u in','let psi := (date - u_t u) * GCON / u_r0 u in','the starting value of palUe2pv in a sequence of calls'),
 ('M_Orbit.v','palUe2pv','(date - u_t u) * GCON / u_r0 u','(date - u_t0 u) * GCON / u_r0 u','the starting value of palUe2pv in a sequence of calls'),
 ('M_Orbit.v','NITMAX','25','5','palUe2pv converges within NITMAX rounds'),
 ('M_Orbit.v','ue_sfun','#1e-13','#0.0','palUe2pv converges at all'),
 ('M_Orbit.v','ue_iter','plast - psi','psi - plast','false-position step of palUe2pv'),
 ('M_Sphere.v','palAirmas','if zd >? MAXZD then MAXZD else zd','if zd <=? MAXZD then zd else MAXZD','palAirmas of NaN'),
 ('Erfa.v','eraC2s','if d2 ==? #0 then #0 else atan2 y x','atan2 y x','longitude of a null vector (atan2 (-0,-0))'),
 ('Erfa.v','eraPas','if (x !=? #0) || (y !=? #0) then atan2 y x else #0','atan2 y x','bearing of coincident points'),
 ('Erfa.v','eraRv2m','if phi >? #0 then V (vx w / phi) (vy w / phi) (vz w / phi) else w','V (vx w / phi) (vy w / phi) (vz w / phi)','rotation by a null vector: 0/0'),
 ('Erfa.v','eraRm2v','if s2 >? #0 then','if s2 >=? #0 then','rotation vector of a symmetric matrix: 0/0'),
 ('Erfa.v','eraPap','if (am ==? #0) || (bm ==? #0) then','if (am ==? #0) && (bm ==? #0) then','position angle with a null vector'),
 ('Erfa.v','eraPn','if w ==? #0 then (w, eraZp) else (w, eraSxp (#1 / w) p)','(w, eraSxp (#1 / w) p)','unit vector of a null vector: 0/0'),
]
