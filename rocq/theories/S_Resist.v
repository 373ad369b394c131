(** What the resistance helpers should compute. *)
From Verif Require Export S_Vec S_Sym M_Resist S_Geom.
Open Scope R_scope.

Definition ex : cvec := CV 1 0 0.
Definition ey : cvec := CV 0 1 0.
Definition ez : cvec := CV 0 0 1.
(** Material values of layer i; the aspect ratio is width by length. *)
Definition film (p : strips) (i : nat) (rx0 ry0 amr ahe smr ratio : R) : Prop :=
  nth_error (sp_Rx0 p) i = Some rx0 /\ nth_error (sp_Ry0 p) i = Some ry0 /\ nth_error (sp_AMR p) i = Some amr /\
  nth_error (sp_AHE p) i = Some ahe /\ nth_error (sp_SMR p) i = Some smr /\
  exists l w, nth_error (sp_l p) i = Some l /\ nth_error (sp_w p) i = Some w /\ l <> 0 /\ ratio * l = w.
(** Resistance along and across the current (along x) of a layer magnetised along m. *)
Definition longitudinal (rx0 amr smr : R) (m : cvec) : R := rx0 + amr * (Dot m ex * Dot m ex) + smr * (Dot m ey * Dot m ey).
Definition transverse (ry0 amr ahe smr ratio : R) (m : cvec) : R := ry0 + ahe * Dot m ez / 2 + ratio * ((smr - amr) * (Dot m ex * Dot m ey)).
Definition layers_of (p : strips) (m : list cvec) (rx ry : list R) : Prop :=
  length rx = length (sp_Rx0 p) /\ length ry = length (sp_Rx0 p) /\
  forall i, (i < length (sp_Rx0 p))%nat -> exists rx0 ry0 amr ahe smr ratio mi, film p i rx0 ry0 amr ahe smr ratio /\ nth_error m i = Some mi /\
    nth_error rx i = Some (longitudinal rx0 amr smr mi) /\ nth_error ry i = Some (transverse ry0 amr ahe smr ratio mi).
(** Sum of f over a list. *)
Definition total (f : R -> R) (rs : list R) : R := fold_right (fun r a => f r + a) 0 rs.
(** Resistors in parallel: a short circuit if one of them is zero. *)
Definition in_parallel (rs : list R) (x : npnum) : Prop :=
  (In 0 rs /\ x = Fin 0) \/
  (~ In 0 rs /\ exists r, total Rinv rs * r = 1 /\ x = Fin r) \/
  (~ In 0 rs /\ total Rinv rs = 0 /\ x = Infinite).
(** The t-th sample of every layer. *)
Definition sample (t : nat) (m : list (list cvec)) (mt : list cvec) : Prop := Forall2 (fun row mi => nth_error row t = Some mi) m mt.
(** Two free layers with angles t1, p1, t2, p2, the second mirrored in the xz plane. *)
Definition mirror (v : cvec) : cvec := CV (cx v) (- cy v) (cz v).
Definition gmr_part (GMR : R) (rho : symbol -> R) : R :=
  GMR * (1 - Dot (point (rho (Theta 1)) (rho (Phi 1)) 1) (mirror (point (rho (Theta 2)) (rho (Phi 2)) 1))) / 2.
Definition film_part (amr smr : R) (v : cvec) : R := amr * (Dot v ex * Dot v ex) + smr * (Dot v ey * Dot v ey).
Definition first_part (a0 s0 : R) (rho : symbol -> R) : R := film_part a0 s0 (point (rho (Theta 1)) (rho (Phi 1)) 1).
Definition second_part (a1 s1 : R) (rho : symbol -> R) : R := film_part a1 s1 (point (rho (Theta 2)) (rho (Phi 2)) 1).
(** Material values of a strip junction (core) and arguments of the Python helpers that describe the same strip. *)
From Verif Require Export S_Run.
Definition same_strip (j : junction) (p : strips) : Prop :=
  sp_Rx0 p = j_Rx0 j /\ sp_Ry0 p = j_Ry0 j /\ sp_AMR p = j_AMR_X j /\ sp_SMR p = j_SMR_X j /\ sp_AHE p = j_AHE j /\
  forall i, (i < layerNo j)%nat -> exists rx0 ry0 amr ahe smr ratio, film p i rx0 ry0 amr ahe smr ratio /\
    nth i (j_AMR_Y j) 0 + nth i (j_SMR_Y j) 0 = ratio * (smr - amr).
