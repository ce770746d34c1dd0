# (file, definition, old, new, claim)
MUTANTS = [
 ('M_Pm.v','eraS2pv','- y * td','y * td','space motion from proper motion'),
 ('M_Pm.v','eraS2pv','cp * rd','sp * rd','space motion from radial velocity'),
 ('M_Pm.v','starpv_loop','#1.0 + b_r s','#1.0 - b_r s','Doppler factor'),
 ('M_Pm.v','starpv_loop','d * betsr + del','d * betsr','relativistic time dilation'),
 ('M_Pm.v','eraStarpv','DR2AS / w','DR2AS * w','distance from parallax'),
 ('M_Pm.v','eraStarpv','(#1e-7, 1%Z)','(px, 1%Z)','parallax floor'),
 ('M_Pm.v','eraStarpv','eraSxp d ust','ust','transverse Doppler factor'),
 ('M_Pm.v','eraStarpm','dt + tl1','dt','light time at the first epoch'),
 ('M_Pm.v','eraStarpm','dt + (tl1 - tl2)','dt','light time change'),
 ('M_Pm.v','eraStarpm','- rdv + sqrt','rdv + sqrt','light time equation'),
 ('M_Pm.v','eraPvstar','eraAnp a','a','range of right ascension'),
 ('M_Pm.v','eraPvup','vz (pvp p) + dt * vz (pvv p)','vz (pvp p)','uniform motion'),
 ('M_Pm.v','palPm','px rv ep1a','rv px ep1a','swapped parallax and radial velocity'),
]
