(** Concrete layers used in the non-vacuity examples. *)
From Verif Require Export P_LayerProps.
Open Scope R_scope.
Open Scope st_scope.

Definition cdrv (v : R) : sdriver := SD constant v 0 (-1) 0 (-1) (-1) (-1) (-1) (-1) (-1).
Definition caxial (v : cvec) : adriver := AX (cdrv (cx v)) (cdrv (cy v)) (cdrv (cz v)).
(** What the public constructor returns for Ms = thickness = surface = 1, damping 1/2, axis z. *)
Definition ex_layer (id : string) (m : cvec) : layer :=
  LY id m (CV 0 0 1) 1 1 (1 * 1) 1 null_tensor null_tensor null_tensor (1 / 2) 0 0 0 0 1 0
    false false true false false false true false vnull RNONE
    default_driver default_driver default_driver default_driver default_driver
    default_driver default_driver default_driver default_driver
    null_axial null_axial null_axial null_axial null_axial null_axial
    1 0 0 all_axes (0%nat, 0, 0) None (fun _ _ => vnull) 0 (fun _ => 0) 3 empty_cache.
Lemma ex_layer_constructed id m : m <> Zero ->
  Layer_plain (fun _ => 0) (fun _ _ => vnull) id m (CV 0 0 1) 1 1 1 null_tensor (1 / 2) = Ok (ex_layer id m).
Proof.
  intros Hm. unfold Layer_plain, mkLayer. rewrite !vlength_Norm.
  destruct (Req_EM_T (Norm m) 0) as [E|_]; [exfalso; apply Hm, Norm_zero_iff, E|].
  destruct (Req_EM_T (Norm (CV 0 0 1)) 0) as [E|_]; [|reflexivity].
  apply Norm_zero_iff in E. unfold Zero in E. injection E. lra.
Qed.
(** Field (hx,hy,hz) applied, spin-transfer torque with fixed polariser x and current 1. *)
Definition ex_stt (m h : cvec) : layer :=
  set_l_refType RFIXED (set_l_reference (CV 1 0 0) (set_l_current (cdrv 1) (set_l_slon 1 (set_l_spinPol 1
   (set_l_includeSTT true (set_l_external (caxial h) (ex_layer "free" m))))))).
Definition ex_field (m h : cvec) : layer := set_l_external (caxial h) (ex_layer "free" m).

Lemma ex_field_inputs m h t : inputs_at (ex_field m h) t (FI h Zero Zero Zero 0 0 0 0 0 Zero Zero).
Proof. destruct h. unfold inputs_at. repeat split. Qed.
Lemma ex_stt_inputs m h t : inputs_at (ex_stt m h) t (FI h Zero Zero Zero 0 0 0 0 0 Zero Zero).
Proof. destruct h. unfold inputs_at. repeat split. Qed.

Lemma ex_field_torque m h t b top dt : exists l' d,
  calculateLLGWithFieldTorque t m b top dt (ex_field m h) = (l', Ok d).
Proof.
  assert (E : exists l', calculateLLGWithFieldTorque t m b top dt (ex_field m h) =
    (l', Ok (LLG_plain (1/2) m (H_eff (ex_field m h) (FI h Zero Zero Zero 0 0 0 0 0 Zero Zero) m b top
       (dipole_total (ex_field m h) b top) Zero)))).
  { apply llg_total_iff. eexists. split; [apply ex_field_inputs|].
    split; [cbn; lra|]. split; [cbn; lra|]. apply (llg_plain (ex_field m h)); reflexivity. }
  destruct E as [l' E]. eauto.
Qed.
Lemma ex_stt_torque m h t b top dt : exists l' d,
  calculateLLGWithFieldTorque t m b top dt (ex_stt m h) = (l', Ok d).
Proof.
  set (l := ex_stt m h). set (i := FI h Zero Zero Zero 0 0 0 0 0 Zero Zero).
  assert (E : exists l', calculateLLGWithFieldTorque t m b top dt l =
    (l', Ok (LLG_stt (1/2) 1 0 (a_J 1 1 1 * eta false 1 1 (Dot m (CV 1 0 0))) m
       (H_eff l i m b top (dipole_total l b top) Zero) (CV 1 0 0)))).
  { apply llg_total_iff. exists i. split; [apply ex_stt_inputs|].
    split; [cbn; lra|]. split; [cbn; lra|].
    apply (llg_stt l t m b top _ 1); try reflexivity; cbn [l ex_stt l_Ms l_thickness]; try (cbn; lra).
    }
  destruct E as [l' E]. eauto.
Qed.
Lemma c20_witness :
  Cross (CV (-1) 0 0) (polariser (ex_stt (CV (-1) 0 0) (CV 0 1 0)) Zero Zero) = Zero /\
  exists l' d, calculateLLGWithFieldTorque 0 (CV (-1) 0 0) Zero Zero 1 (ex_stt (CV (-1) 0 0) (CV 0 1 0)) = (l', Ok d).
Proof. split; [cbn; apply vec_eq; ring|apply ex_stt_torque]. Qed.
Lemma idmi_refuted : exists t m1 m2 lo up lo' up' h1 h2,
  l_IDMITop lo = l_IDMIBottom up /\
  calculateIDMI t m1 vnull m2 lo = (lo', Ok h1) /\ calculateIDMI t m2 m1 vnull up = (up', Ok h2) /\
  Plus (Scal (l_Ms lo * l_thickness lo) (Cross m1 h1)) (Scal (l_Ms up * l_thickness up) (Cross m2 h2)) <> Zero.
Proof.
  set (D := CV 0 0 1). set (x := CV 1 0 0).
  set (lo := set_l_IDMITop (caxial D) (ex_layer "lo" x)). set (up := set_l_IDMIBottom (caxial D) (ex_layer "up" x)).
  assert (E1 : calculateIDMI 0 x vnull x lo = (lo, Ok (Plus (H_idmi Zero (1 * 1) Zero) (H_idmi D (1 * 1) x)))).
  { apply IDMI_ok; try reflexivity. cbn. lra. }
  assert (E2 : calculateIDMI 0 x x vnull up = (up, Ok (Plus (H_idmi D (1 * 1) x) (H_idmi Zero (1 * 1) Zero)))).
  { apply IDMI_ok; try reflexivity. cbn. lra. }
  exists 0, x, x, lo, up, lo, up. do 2 eexists. split; [reflexivity|]. split; [exact E1|]. split; [exact E2|].
  intros H. assert (HD : getCurrentAxialDrivers (l_IDMITop lo) 0 = Ok D) by reflexivity.
  assert (HD' : getCurrentAxialDrivers (l_IDMIBottom up) 0 = Ok D) by reflexivity.
  destruct (idmi_total_torque _ _ _ _ _ _ _ _ _ _ HD HD' E1 E2) as [_ T]. rewrite H in T. clear - T.
  unfold D, x in T. vsimp. lra.
Qed.
Lemma c02_witness : let l := ex_field (CV 0 0 1) (CV 0 1 0) in
  l_includeSTT l = false /\ l_includeSOT l = false /\ l_damping l = 1 / 2 /\
  exists l' d, solveLLG 0 (CV 0 0 1) 1 Zero Zero (CV 0 1 0) l = (l', Ok d).
Proof.
  intros l. do 3 (split; [reflexivity|]).
  destruct (solveLLG_complete l 0 (CV 0 0 1) 1 Zero Zero (CV 0 1 0) (LLG_plain (1/2) (CV 0 0 1) (CV 0 1 0))) as [l' E].
  { apply (llg_plain l); reflexivity. }
  eauto.
Qed.
Definition ex_lo : layer := set_l_IECTop (cdrv 3) (set_l_QuadTop (cdrv 2) (ex_layer "lo" (CV 0 0 1))).
Definition ex_up : layer := set_l_IECBottom (cdrv 3) (set_l_QuadBottom (cdrv 2) (ex_layer "up" (CV 1 0 0))).
Lemma c17_witness : l_IECTop ex_lo = l_IECBottom ex_up /\ l_QuadTop ex_lo = l_QuadBottom ex_up /\
  exists lo' up' h1 h2,
  calculateIEC 0 (CV 0 0 1) vnull (CV 1 0 0) ex_lo = (lo', Ok h1) /\
  calculateIEC 0 (CV 1 0 0) (CV 0 0 1) vnull ex_up = (up', Ok h2) /\ h1 <> Zero.
Proof.
  split; [reflexivity|]. split; [reflexivity|]. do 4 eexists.
  split; [apply (IEC_ok 0 _ _ _ ex_lo 0 3 0 2); try reflexivity; cbn; lra|].
  split; [apply (IEC_ok 0 _ _ _ ex_up 3 0 2 0); try reflexivity; cbn; lra|].
  unfold H_iec. cbn. unfold Zero. intros H. injection H. lra.
Qed.
