# edits of palDmat's memory model: pointers, bounds, workspace
MUTANTS = [
 ('M_Mem.v','dmat_pivot_m','for_from (k + 1) (n - (k + 1))','for_from (k + 1) (n - k)','palDmat pivot search one row too far'),
 ('M_Mem.v','dmat_pivot_m','((aoff @+ Z.of_nat n), (fabs','(aoff, (fabs','palDmat pivot search starts at the wrong row'),
 ('M_Mem.v','dmat_pivot_m','(t, i, apos2)','(t, i, aoff2)','palDmat forgets the pointer to the pivot row'),
 ('M_Mem.v','dmat_swap_rows_m','for_up n','for_up (S n)','palDmat exchanges one element too many'),
 ('M_Mem.v','dmat_scale_row_m','if Nat.eqb j k then m else','','palDmat scales the pivot itself'),
 ('M_Mem.v','dmat_elim_m','((apos2 @+ Z.of_nat n),','((apos2 @+ Z.of_nat k),','palDmat advances the row pointer wrongly'),
 ('M_Mem.v','dmat_elim_m','wr (y @+ Z.of_nat i) (m (y','wr (y @+ Z.of_nat k) (m (y','palDmat updates the wrong right-hand side'),
 ('M_Mem.v','dmat_col_m','- m (aoff @+ Z.of_nat k)','- m (apos2 @+ Z.of_nat k)','palDmat pivot column'),
 ('M_Mem.v','dmat_step_m','let iw := upd (dmm_iw s) k imx in','let iw := dmm_iw s in','palDmat leaves the workspace unset'),
 ('M_Mem.v','dmat_step_m','let m := wr (y @+ Z.of_nat imx) t m in','','palDmat exchanges right-hand sides'),
 ('M_Mem.v','dmat_step_m','Dmm (aoff @+ Z.of_nat n) (dmat_col_m','Dmm (aoff @+ Z.of_nat k) (dmat_col_m','palDmat advances the outer row pointer'),
 ('M_Mem.v','dmat_swap_cols_m','for_up n','for_up (n + 1)','palDmat column exchange goes beyond the matrix'),
 ('M_Mem.v','palDmat_m','for_down n (fun k m','for_up n (fun k m','palDmat undoes the exchanges in the wrong order'),
 ('M_Mem.v','palDmat_m','then (dmm_m s, #0, dmm_jf s, dmm_iw s)','then (m, #0, dmm_jf s, dmm_iw s)','palDmat on failure (overwrites the matrix)'),
 ('M_Linear.v','dmat_step','let iw := upd (dm_iw s) k imx in','let iw := dm_iw s in','palDmat leaves the workspace unset'),
 ('M_Linear.v','palPxy','for_up (Z.to_nat np)','for_up (Z.to_nat np + 1)','palPxy beyond np'),
 ('M_Linear.v','fitxy6','let n := Z.to_nat np in','let n := Z.to_nat (np + 1) in','palFitxy beyond np'),
]
