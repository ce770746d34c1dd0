-Q theories Verif

theories/Num.v
theories/NumR.v
theories/Erfa.v
theories/Geom.v
theories/M_Sphere.v
theories/P_Sphere.v
theories/P_Horizon.v
theories/P_Tangent.v
theories/Props_Sphere.v
theories/Props_Const.v
theories/Loops.v
theories/M_Linear.v
theories/P_Dmat.v
theories/DetExists.v
theories/P_Linear.v
theories/P_Lsq.v
theories/P_Pcd.v
theories/Props_Linear.v
theories/M_Time.v
theories/P_Cal.v
theories/P_Time.v
theories/Props_Time.v
theories/Props_Ranorm.v
theories/ObsTable.v
theories/M_Str.v
theories/P_Str.v
theories/Props_Str.v
theories/P_Flt.v
theories/Props_Flt.v
theories/Props_Obs.v
theories/Erfa2.v
theories/M_Frames.v
theories/P_Frames.v
theories/P_PrecNum.v
theories/P_Eterms.v
theories/P_Fk.v
theories/P_Polmo.v
theories/Props_Frames.v
theories/M_Refr.v
theories/P_Refr.v
theories/P_Simpson.v
theories/P_Refz.v
theories/P_RefzC.v
theories/P_Refv.v
theories/Props_Refr.v
theories/NutTable.v
theories/M_Place.v
theories/P_Place.v
theories/Props_Place.v
theories/P_Aop.v
theories/Props_Aop.v
theories/M_Kin.v
theories/Props_Kin.v
theories/MoonTable.v
theories/M_Moon.v
theories/P_Moon.v
theories/Props_Moon.v
theories/M_Orbit.v
theories/P_Orbit.v
theories/Univ.v
theories/Uniq.v
theories/P_Univ.v
theories/Props_Orbit.v
theories/P_Ue2pv.v
theories/Props_Kepler.v
theories/P_Elem.v
theories/Props_Elem.v
theories/Props_Atm.v
theories/M_Misc.v
theories/Props_Misc.v
theories/Props_Nut.v
theories/Props_Nut2.v
theories/Props_Moon2.v
theories/Props_Pert.v
theories/Props_Plan.v
theories/M_Pm.v
theories/P_Pm.v
theories/Props_Pm.v
theories/Props_Fk.v
theories/Props_Newcomb.v
theories/Props_Prec.v
theories/NumD.v
theories/NumF.v
theories/Props_Dangle.v
theories/Props_Dsexa.v
theories/Props_Dcal.v
theories/NumDE.v
theories/Props_Dsep.v
theories/Props_Dsph.v
theories/Props_Dhor.v
theories/Props_Depo.v
theories/Props_Dgal.v
theories/Props_Deul.v
theories/Props_Dvec.v
theories/Props_Dtan.v
theories/Props_Dbear.v
theories/Props_Dgmst.v
theories/Props_Ieee.v
theories/Props_Ieee2.v
theories/Props_Degen.v
theories/Props_Drot.v
theories/Props_Nan.v
theories/P_Conv.v
theories/Props_Conv.v
theories/M_Mem.v
theories/Props_Mem.v
theories/Props_Dmem.v
theories/NumFSym.v
theories/Props_Sym.v
theories/M_Int.v
theories/P_Int.v
theories/Props_Int.v
theories/M_Text.v
theories/P_Text.v
theories/Props_Text.v
theories/Props_Scan.v
theories/M_Dat.v
theories/Props_Dat.v
