(** Relabelling the axes x -> y -> z -> x. *)
From Verif Require Export S_Api.
From Coq Require Import Ascii.
Open Scope R_scope.

Definition rotate (v : cvec) : cvec := CV (cz v) (cx v) (cy v).
(** The same linear map in the new coordinates. *)
Definition rotateT (t : tensor) : tensor := Ten (rotate (row2 t)) (rotate (row0 t)) (rotate (row1 t)).
Definition rotateA (d : adriver) : adriver := AX (ax2 d) (ax0 d) (ax1 d).
Definition rotate_axis (a : axis) : axis := match a with xaxis => yaxis | yaxis => zaxis | zaxis => xaxis | all_axes => all_axes | none_axis => none_axis end.
(** Random numbers are drawn in triples, one per axis. *)
Definition rotate_stream (f : nat -> R) (k : nat) : R := match (k mod 3)%nat with O => f (k + 2)%nat | _ => f (k - 1)%nat end.
Definition rotateN (n : vnoise) : vnoise := VN (rotate_axis (vn_axis n)) (vn_scale n) (fun k => rotate (vn_raw n k)) (vn_pos n).
Definition rotateC (c : lcache) : lcache :=
  LC
    (rotate (c_H_log c)) (rotate (c_Hoe_log c)) (rotate (c_Hext c)) (rotate (c_Hdipole c))
    (rotate (c_Hdemag c)) (rotate (c_Hoe c)) (rotate (c_HAnis c)) (rotate (c_Hfluctuation c))
    (rotate (c_Hdmi c)) (rotate (c_Hidmi c)) (rotate (c_Hfl_v c)) (rotate (c_Hdl_v c)) (rotate (c_HIEC c))
    (c_Jbottom_log c) (c_Jtop_log c) (c_J2bottom_log c) (c_J2top_log c) (c_K_log c) (c_I_log c).
(** Every vector, tensor, axis and axial driver of a layer, and its random numbers, relabelled. *)
Definition rotateL (l : layer) : layer :=
  LY
    (l_id l) (rotate (l_mag l)) (rotate (l_anis l)) (l_Ms l) (l_thickness l) (l_cellVolume l) (l_cellSurface l)
    (rotateT (l_demag l)) (rotateT (l_dipoleBottom l)) (rotateT (l_dipoleTop l)) (l_damping l)
    (l_fieldLikeTorque l) (l_dampingLikeTorque l) (l_slon l) (l_beta l) (l_kappa l) (l_spinPol l)
    (l_includeSTT l) (l_includeSOT l) (l_dynamicSOT l) (l_alternativeSTT l) (l_temperatureSet l)
    (l_nonStochTemp l) (l_nonStochOneF l) (l_pinkNoiseSet l) (rotate (l_reference l)) (l_refType l)
    (l_temperature l) (l_IECTop l) (l_IECBottom l) (l_QuadTop l) (l_QuadBottom l) (l_current l)
    (l_anisotropy l) (l_flDriver l) (l_dlDriver l) (rotateA (l_IDMITop l)) (rotateA (l_IDMIBottom l))
    (rotateA (l_Hreserved l)) (rotateA (l_external l)) (rotateA (l_Oersted l)) (rotateA (l_Hdmi l))
    (l_nAlpha l) (l_nScale l) (l_nStd l) (rotate_axis (l_nAxis l)) (l_ofn l) (option_map rotateN (l_bfn l))
    (fun n k => rotate (l_nsrc l n k)) (l_ngen l) (rotate_stream (l_rng l)) (l_rpos l) (rotateC (l_cache l)).
(** Names of columns: the last letter x, y, z names the axis. *)
Definition next_letter (a : Ascii.ascii) : Ascii.ascii :=
  if Ascii.eqb a "x"%char then "y"%char else if Ascii.eqb a "y"%char then "z"%char else if Ascii.eqb a "z"%char then "x"%char else a.
Fixpoint rotate_key (k : string) : string :=
  match k with EmptyString => EmptyString | String a EmptyString => String (next_letter a) EmptyString | String a r => String a (rotate_key r) end.
Definition rotated_log (g g' : log_t) : Prop := forall k, log_get (rotate_key k) g' = log_get k g.
(** The junction with every layer relabelled; its columns carry the new names. *)
Definition rotated (j j' : junction) : Prop :=
  j_layers j' = map rotateL (j_layers j) /\ rotated_log (j_log j) (j_log j') /\ j_logLength j' = j_logLength j /\
  j_mode j' = j_mode j /\ j_Rp j' = j_Rp j /\ j_Rap j' = j_Rap j /\ j_Rtag j' = j_Rtag j.
(** A whole number of triples was drawn so far. *)
Definition in_triples (l : layer) : Prop := (l_rpos l mod 3 = 0)%nat.
(** No resistance of a named axis is logged. *)
Definition axis_free (j : junction) : Prop := j_mode j <> MR_STRIP /\ rotate_key (j_Rtag j) = j_Rtag j.
(** Calls with relabelled arguments. *)
Definition rotate_setting (s : setting) : setting :=
  match s with
  | SExternalField d => SExternalField (rotateA d) | SOersted d => SOersted (rotateA d) | SReserved d => SReserved (rotateA d) | SHdmi d => SHdmi (rotateA d)
  | SMagnetisation m => SMagnetisation (rotate m) | SReferenceVec r => SReferenceVec (rotate r)
  | _ => s
  end.
Definition rotate_call (a : api) : api :=
  match a with ASet id s => ASet id (rotate_setting s) | ACouple x y (CIDMI d) => ACouple x y (CIDMI (rotateA d)) | _ => a end.
(** Calls that all succeed. *)
Fixpoint succeeds (calls : list api) (j j' : junction) : Prop :=
  match calls with [] => j' = j | a :: calls => exists j1, call a j = (j1, Ok tt) /\ succeeds calls j1 j' end.
