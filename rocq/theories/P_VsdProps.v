(** Consequences for the diode procedure. *)
From Verif Require Export P_Vsd.
From Coq Require Import List Lra Lia.
Open Scope R_scope.

Lemma series_sampled : sampled_fn calculate_resistance_series3.
Proof.
  intros p T ms rx ry E. unfold calculate_resistance_series3 in E. apply rbind_iff in E. destruct E as (s & _ & E). injection E as <- <-. unfold columns. rewrite !map_length, seq_length. split; reflexivity.
Qed.
Lemma line_length design rnd a params H fs st st' vs : vsd_line design rnd a params H fs st st' vs -> length vs = length fs.
Proof. intros L. induction L; cbn; congruence. Qed.
Lemma lines_shape design rnd a params Hs st st' vs : vsd_lines design rnd a params Hs st st' vs -> length vs = length Hs /\ Forall (fun v => length v = length (va_frequencies a)) vs.
Proof.
  intros L. induction L as [st|H Hs st st1 st2 v vs E L [IH1 IH2]]; [split; [reflexivity|constructor]|]. split; [cbn; congruence|]. constructor; [exact (line_length _ _ _ _ _ _ _ _ _ E)|exact IH2].
Qed.
(** A first entry exists as soon as there is a field and a frequency. *)
Lemma lines_first design rnd a params Hs st st' vs : vsd_lines design rnd a params Hs st st' vs -> Hs <> [] -> va_frequencies a <> [] ->
  exists H f st1 v, In H Hs /\ In f (va_frequencies a) /\ vsd_entry design rnd a params H f st st1 v.
Proof.
  intros L NH NF. destruct L as [|H Hs st st1 st2 v vs E L]; [congruence|]. inversion E as [|f fs s0 s1 s2 x xs E1 E2]; subst; [congruence|]. exists H, f, s1, x. split; [left; reflexivity|]. split; [left; reflexivity|exact E1].
Qed.
Lemma line_all design rnd a params H fs st st' vs : vsd_line design rnd a params H fs st st' vs -> forall f, In f fs -> exists s0 s1 v, vsd_entry design rnd a params H f s0 s1 v.
Proof. intros L. induction L as [st|f fs st st1 st2 v vs E L IH]; intros g Hg; [destruct Hg|]. destruct Hg as [<-|Hg]; [eauto|apply IH, Hg]. Qed.
Lemma lines_frequency design rnd a params Hs st st' vs f : vsd_lines design rnd a params Hs st st' vs -> Hs <> [] -> In f (va_frequencies a) -> f <> -1.
Proof.
  intros L NH Hf. destruct L as [|H Hs st st1 st2 v vs E L]; [congruence|]. destruct (line_all _ _ _ _ _ _ _ _ _ E f Hf) as (s0 & s1 & w & (j1 & N & s & r & X & _)). exact X.
Qed.
Lemma lines_Rz design rnd a params Hs st st' vs : vsd_lines design rnd a params Hs st st' vs -> Hs <> [] -> va_frequencies a <> [] -> va_Rtype a = "Rz"%string ->
  layerNo (fst st) = 2%nat /\ j_mode (fst st) = MR_CLASSIC.
Proof.
  intros L NH NF RZ. destruct (lines_first _ _ _ _ _ _ _ _ L NH NF) as (H & f & st1 & v & _ & _ & (j1 & N & s & r & _ & _ & _ & _ & _ & VR & _)).
  destruct VR as [(_ & A & B & _)|(rx & ry & _ & [[X _]|[X _]])]; [split; assumption|rewrite RZ in X; discriminate..].
Qed.
Lemma lines_type design rnd a params Hs st st' vs : vsd_lines design rnd a params Hs st st' vs -> Hs <> [] -> va_frequencies a <> [] ->
  va_Rtype a = "Rx"%string \/ va_Rtype a = "Ry"%string \/ va_Rtype a = "Rz"%string.
Proof.
  intros L NH NF. destruct (lines_first _ _ _ _ _ _ _ _ L NH NF) as (H & f & st1 & v & _ & _ & (j1 & N & s & r & _ & _ & _ & _ & _ & VR & _)).
  destruct VR as [(X & _)|(rx & ry & _ & [[X _]|[X _]])]; auto.
Qed.
Lemma lines_step design rnd a params Hs st st' vs : vsd_lines design rnd a params Hs st st' vs -> Hs <> [] -> va_frequencies a <> [] -> 0 < va_int_step a < / (2 * 10 ^ 7).
Proof.
  intros L NH NF. destruct (lines_first _ _ _ _ _ _ _ _ L NH NF) as (H & f & st1 & v & _ & _ & (j1 & N & s & r & _ & _ & _ & _ & _ & _ & RE)). exact (rectified_step _ _ _ _ _ RE).
Qed.

(** ** Example: the resting bilayer *)
Definition ex_oe (f : R) : adriver := along_axis zaxis (field_sine 7 f).
Definition ex_ready_sine (f : R) : junction :=
  set_j_layers [set_l_IECTop (cdrv 1) (set_l_Oersted (ex_oe f) (set_l_external (steady (CV 0 0 5)) (ex_layer "free" (CV 0 0 1))));
   set_l_IECBottom (cdrv 1) (set_l_Oersted (ex_oe f) (set_l_external (steady (CV 0 0 5)) (ex_layer "pinned" (CV 0 0 (-1)))))] ex_sample.
Lemma ex_prepared_sine rnd f : prepared_for rnd (CV 0 0 5) (ex_oe f) 0 0 ex_sample (ex_ready_sine f).
Proof.
  split; [discriminate|]. exists (j_layers (ex_ready_sine f)). split; [reflexivity|]. split; [reflexivity|]. intros [|[|p]] l l1 A B; cbn in A, B.
  - injection A as <-. injection B as <-. exists (CV 0 0 1). split; [split; [reflexivity|contradiction]|reflexivity].
  - injection A as <-. injection B as <-. exists (CV 0 0 (-1)). split; [split; [reflexivity|contradiction]|reflexivity].
  - destruct p; discriminate.
Qed.
Lemma ex_ready_sine_rest f : at_rest (ex_ready_sine f).
Proof.
  assert (U : forall z, z * z = 1 -> Unit (CV 0 0 z)). { intros z Hz. unfold Unit. rewrite norm_z. exact Hz. }
  intros [|[|p]] l H; cbn in H.
  - injection H as <-. split; [|split; reflexivity].
    split; [apply U; ring|]. split; [reflexivity|]. split; [reflexivity|]. split; [cbn; lra|]. split; [cbn; lra|].
    intros s. exists (FI (CV 0 0 5) (CV 0 0 (0 + 7 * sin (2 * PI * s * f + 0))) Zero Zero 0 0 1 0 0 Zero Zero). split; [repeat split|].
    unfold H_eff, IEC_total, H_iec, H_anis, H_tensor, IDMI_total, H_idmi, dipole_total. cbn -[Rmult Rplus Rdiv Rminus sin PI].
    unfold Cross. cbn [cx cy cz]. apply vec_eq; cbn [cx cy cz]; unfold Rdiv; ring.
  - injection H as <-. split; [|split; reflexivity].
    split; [apply U; ring|]. split; [reflexivity|]. split; [reflexivity|]. split; [cbn; lra|]. split; [cbn; lra|].
    intros s. exists (FI (CV 0 0 5) (CV 0 0 (0 + 7 * sin (2 * PI * s * f + 0))) Zero Zero 0 1 0 0 0 Zero Zero). split; [repeat split|].
    unfold H_eff, IEC_total, H_iec, H_anis, H_tensor, IDMI_total, H_idmi, dipole_total. cbn -[Rmult Rplus Rdiv Rminus sin PI].
    unfold Cross. cbn [cx cy cz]. apply vec_eq; cbn [cx cy cz]; unfold Rdiv; ring.
  - destruct p; discriminate.
Qed.
(** A filter that passes everything. *)
Definition pass_all : coefficients := fun _ _ => ([1], [1]).
Lemma pass_all_filtered x : filtered [1] [1] x x.
Proof.
  split; [reflexivity|]. intros n Hn. reflexivity.
Qed.
Definition ex_dt : R := / 10 ^ 8.
Definition ex_vsd (ty : string) : vsd_args :=
  VSD [CV 0 0 5] [10 ^ 6] ex_dt (Some ex_params) zaxis 7 (10 * ex_dt) 0 ty calculate_resistance_series3.
Lemma ex_counts : step_counts (10 * ex_dt) ex_dt ex_dt 10 1.
Proof.
  assert (P : 0 < ex_dt) by (unfold ex_dt; apply Rinv_0_lt_compat; lra). assert (A : 10 * ex_dt / ex_dt = 10) by (field; lra). assert (B : ex_dt / ex_dt = 1) by (field; lra).
  unfold step_counts. rewrite A, B. repeat split; try lra; left; cbn; lra.
Qed.
Lemma ex_vsd_runs rnd : exists st', VSD_procedure pass_all rnd (ex_vsd "Rz") (ex_sample, 0%nat) = (st', Ok [[Rsum (fun k => - sin (2 * PI * 10 ^ 6 * (INR k * ex_dt)) * 200) 10 / 10]]).
Proof.
  destruct ex_sample_named as [NM NA]. pose proof (ex_prepared_sine rnd (10 ^ 6)) as PF. destruct (prepared_for_shape _ _ _ _ _ _ _ PF) as (SH & L0 & L1 & K).
  assert (P : 0 < ex_dt) by (unfold ex_dt; apply Rinv_0_lt_compat; lra).
  destruct (@rest_experiment (10 * ex_dt) ex_dt (ex_ready_sine (10 ^ 6)) 10 (named_shape _ _ SH NM) L0 L1 (ex_ready_sine_rest _) P ltac:(discriminate) ltac:(discriminate) ex_counts) as (j2 & s & EX & EM & ES).
  exists (j2, 0%nat). apply vsd_iff; [apply series_sampled|exact NM|exact NA|]. split; [intros _; cbn; lia|]. split; [reflexivity|].
  econstructor; [|constructor]. econstructor; [|constructor].
  exists (ex_ready_sine (10 ^ 6)), 10%nat, s, (map (fun k => GMR 100 200 (Dot (sample_of s 0 k) (sample_of s 1 k))) (seq 0 10)). cbn [fst snd].
  split; [cbn; lra|]. split; [exact PF|]. split; [exact EX|]. split; [lia|]. split; [cbn; unfold drawn; destruct (Req_EM_T 0 0); [reflexivity|congruence]|].
  split; [left; repeat split|]. cbn [va_int_step ex_vsd].
  assert (W : 2 * (10 * 10 ^ 6) * ex_dt = 2 / 10) by (unfold ex_dt; field).
  split; [lra|]. split; [rewrite W; unfold valid_edge; lra|]. split; [discriminate|]. split; [reflexivity|].
  eexists. exists [1], [1]. split; [reflexivity|]. split; [discriminate|]. split; [unfold coef; cbn; lra|]. split; [apply pass_all_filtered|].
  rewrite map_length, combine_length, !map_length, !seq_length. replace (INR (Nat.min 10 10)) with 10 by (cbn; lra). f_equal.
  symmetry. apply (P_Compute.Sigma_nth _ 10%nat); [reflexivity|]. intros k Hk.
  rewrite (nth_indep _ 0 ((fun p => - snd p * fst p) (0, 0))) by (rewrite map_length, combine_length, !map_length, !seq_length; exact Hk).
  rewrite (map_nth (fun p : R * R => - snd p * fst p)). rewrite combine_nth by (rewrite !map_length; reflexivity). cbn [fst snd].
  rewrite (nth_error_nth _ _ _ (nth_error_map_seq (fun k => sin (2 * PI * 10 ^ 6 * (INR k * ex_dt))) 10 k Hk)).
  rewrite (nth_error_nth _ _ _ (nth_error_map_seq (fun k => GMR 100 200 (Dot (sample_of s 0 k) (sample_of s 1 k))) 10 k Hk)). f_equal.
  rewrite !ES by exact Hk. cbn -[GMR]. unfold GMR, Dot. cbn. lra.
Qed.
