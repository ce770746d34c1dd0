# edits of the memory model: stores moved before loads, temporaries dropped, destinations confused
MUTANTS = [
 ('M_Mem.v','eraRxp_m','st_vec rp (V (w 0%Z) (w 1%Z) (w 2%Z)) m','let m1 := wr rp (w 0%Z) m in let w j := #0 + m1 (r @+ (3 * j)%Z) * m1 p + m1 (r @+ (3 * j + 1)%Z) * m1 (p @+ 1) + m1 (r @+ (3 * j + 2)%Z) * m1 (p @+ 2) in wr (rp @+ 2) (w 2%Z) (wr (rp @+ 1) (w 1%Z) m1)','palDmxv in place (no temporary)'),
 ('M_Mem.v','eraRxr_m','(w 2 1) (w 2 2)','(w 2 2) (w 2 1)','palDmxm in memory'),
 ('M_Mem.v','eraTrxp_m','st_vec trp','st_vec p','palDimxv stores over its argument'),
 ('M_Mem.v','eraPxp_m','wr (axb @+ 1) (za * xb - xa * zb) m','wr (axb @+ 1) (za * m b - xa * zb) m','palDvxv in place'),
 ('M_Mem.v','eraPn_m','eraSxp_m (#1 / w) p u m','eraSxp_m (#1 / w) u u m','palDvn reads its argument'),
 ('M_Mem.v','eraPn_m','wr r w m.','wr u w m.','palDvn stores the modulus'),
 ('M_Mem.v','eraC2s_m','else atan2 z (sqrt d2)','else atan2 (m (p @+ 2)) (sqrt d2)','palDcc2s stored over the vector'),
 ('M_Mem.v','eraRv2m_m','let m := wr (r @+ 4) (y * y * f + c) m in','let m := wr (r @+ 4) (m (w @+ 1) * y * f + c) m in','palDav2m in place'),
 ('M_Mem.v','eraRm2v_m','else let m := wr w #0 m in let m := wr (w @+ 1) #0 m in wr (w @+ 2) #0 m','else m','palDm2av stores a null vector'),
 ('M_Mem.v','palDeuler_m','(eraIr_m rmat m)','m','palDeuler starts from the unit matrix'),
 ('M_Mem.v','era_r_m','let m := st_vec (r @+ (3 * i)%Z) u m in st_vec (r @+ (3 * j)%Z) d m','let m := st_vec (r @+ (3 * i)%Z) u m in st_vec (r @+ (3 * j)%Z) (V (if sg then - s * m (r @+ (3 * i)%Z) + c * m (r @+ (3 * j)%Z) else s * m (r @+ (3 * i)%Z) + c * m (r @+ (3 * j)%Z)) (vy d) (vz d)) m','palDeuler row stored before it is used'),
 ('M_Mem.v','palInvf_m','let m := wr (bkwds @+ 5) (b / det) m','let m := wr (bkwds @+ 5) (m (fwds @+ 1) / det) m','palInvf in place'),
 ('M_Mem.v','palInvf_m','if det !=? #0 then','let m := wr bkwds ((c * d - a * f) / det) m in if det !=? #0 then','palInvf stores nothing on failure'),
 ('M_Mem.v','palXy2xy_m','wr y2 (m (coeffs @+ 3)','wr y2 (m (coeffs @+ 2)','palXy2xy coefficients'),
 ('M_Mem.v','pxy_step','let m := wr (xyp @+ (i + 1)%Z) yp m in','let m := wr (xyp @+ (i + 2)%Z) yp m in','palPxy stores the prediction'),
 ('M_Mem.v','pxy_step','let dx := m (xye @+ i) - xp in','let dx := m (xym @+ i) - xp in','palPxy residuals'),
 ('M_Mem.v','palPxy_m','(Z.to_nat np) (pxy_step','(S (Z.to_nat np)) (pxy_step','palPxy stores beyond np'),
 ('M_Mem.v','palPxy_m','m xrms * m xrms + m yrms * m yrms','m xrms * m xrms + m xrms * m xrms','palPxy combined residual'),
 ('M_Mem.v','palDcmpf_m','(m (coeffs @+ 4)) (m (coeffs @+ 5))','(m (coeffs @+ 5)) (m (coeffs @+ 4))','palDcmpf coefficients'),
 ('M_Mem.v','palPcd_m','let m := wr x (m x * f) m in wr y (m y * f) m','let m := wr x (m x * f) m in wr y (m y * (#1 + disco * (m x * m x + m y * m y))) m','palPcd factor computed after x changed'),
 ('M_Mem.v','palRefv_m','wr (vr @+ 1) (y * f) m','wr (vr @+ 1) (m (vu @+ 1) * f) m','palRefv overlapping from above'),
 ('M_Mem.v','palPv2ue_m','let m := wr (u @+ 11) date m in','let m := wr (u @+ 11) (m (u @+ 12)) m in','palPv2ue last epoch'),
 ('M_Mem.v','palPv2ue_m','let cm := #1.0 + pmass in','let cm := #1.0 + pmass in let m := wr u cm m in','palPv2ue stores nothing on failure'),
 ('M_Mem.v','palUe2pv_m','let m := wr (ua @+ 11) date m in let m := wr (ua @+ 12) psi\' m in','let m := wr (ua @+ 12) date m in let m := wr (ua @+ 11) psi\' m in','palUe2pv updates the epoch and psi'),
 ('M_Mem.v','palUe2pv_m','Some (UFail st) => Some (m, st)','Some (UFail st) => Some (wr (ua @+ 11) date m, st)','palUe2pv changes nothing on failure'),
]
