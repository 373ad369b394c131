(** Consequences for the pulse procedure. *)
From Verif Require Export P_Pimm P_RunEx.
From Coq Require Import List Lra Lia Classical.
Set Implicit Arguments.
Open Scope R_scope.

(** ** Weights *)
Lemma weights_sum_partial ls : forall rest, total_moment rest <> 0 -> fold_right Rplus 0 (map (weight rest) ls) = total_moment ls / total_moment rest.
Proof.
  intros rest H. induction ls as [|l ls IH]; cbn [map fold_right total_moment]; [unfold total_moment; cbn; field; exact H|].
  rewrite IH. unfold weight. change (fold_right (fun l a => moment l + a) 0 ls) with (total_moment ls). field. exact H.
Qed.
Lemma weights_one ls : total_moment ls <> 0 -> fold_right Rplus 0 (map (weight ls) ls) = 1.
Proof. intros H. rewrite weights_sum_partial by exact H. field. exact H. Qed.
Lemma total_moment_pos ls : ls <> [] -> (forall l, In l ls -> 0 < moment l) -> 0 < total_moment ls.
Proof.
  intros NE H. destruct ls as [|l ls]; [contradiction|]. cbn [total_moment fold_right].
  assert (X : 0 <= fold_right (fun l a => moment l + a) 0 ls).
  { assert (Y : forall q, In q ls -> 0 < moment q) by (intros q Hq; apply H; right; exact Hq). clear -Y. induction ls as [|q ls IH]; cbn; [lra|].
    pose proof (Y q (or_introl eq_refl)). assert (0 <= fold_right (fun l a => moment l + a) 0 ls) by (apply IH; intros z Hz; apply Y; right; exact Hz). lra. }
  pose proof (H l (or_introl eq_refl)). lra.
Qed.
Lemma Norm_triangle a b : Norm (Plus a b) <= Norm a + Norm b.
Proof.
  pose proof (Norm_nonneg a) as A. pose proof (Norm_nonneg b) as B. pose proof (Norm_nonneg (Plus a b)) as C. pose proof (Norm_sqr a) as A2. pose proof (Norm_sqr b) as B2. pose proof (Norm_sqr (Plus a b)) as C2.
  assert (D : Dot a b <= Norm a * Norm b).
  { apply Rsqr_incr_0_var; [|apply Rmult_le_pos; assumption]. unfold Rsqr. replace (Norm a * Norm b * (Norm a * Norm b)) with (Norm2 a * Norm2 b) by (rewrite <- A2, <- B2; ring).
    destruct a as [a1 a2 a3], b as [b1 b2 b3]. vsimp. pose proof (Rle_0_sqr (a1 * b2 - a2 * b1)). pose proof (Rle_0_sqr (a1 * b3 - a3 * b1)). pose proof (Rle_0_sqr (a2 * b3 - a3 * b2)). unfold Rsqr in *. nra. }
  apply Rsqr_incr_0_var; [|lra]. unfold Rsqr. rewrite C2. replace ((Norm a + Norm b) * (Norm a + Norm b)) with (Norm2 a + Norm2 b + 2 * (Norm a * Norm b)) by (rewrite <- A2, <- B2; ring).
  destruct a as [a1 a2 a3], b as [b1 b2 b3]. vsimp. unfold Dot in D. cbn in D. nra.
Qed.
Lemma Norm_scal_pos k r : 0 <= k -> Norm (Scal k r) = k * Norm r.
Proof. intros Hk. unfold Norm. rewrite Norm2_Scal, sqrt_mult_alt by nra. f_equal. apply sqrt_square. lra. Qed.
Lemma norm_sum_le (W : layer -> R) (v : nat -> cvec) ls : forall i, (forall l, In l ls -> 0 <= W l) -> (forall p, Norm (v p) <= 1) ->
  Norm (Sum (mapi (fun p l => Scal (W l) (v p)) i ls)) <= fold_right Rplus 0 (map W ls).
Proof.
  induction ls as [|l ls IH]; intros i HW HV.
  - cbn. rewrite (proj2 (Norm_zero_iff Zero)); [lra|reflexivity].
  - cbn [mapi Sum fold_right map]. eapply Rle_trans; [apply Norm_triangle|]. apply Rplus_le_compat.
    + rewrite Norm_scal_pos by (apply HW; left; reflexivity). rewrite <- (Rmult_1_r (W l)) at 2. apply Rmult_le_compat_l; [apply HW; left; reflexivity|apply HV].
    + apply IH; [intros q Hq; apply HW; right; exact Hq|exact HV].
Qed.

(** Samples are of length one (or zero, which the setters exclude) as soon as there is a step. *)
Lemma sample_norm T dt j1 j2 N s p k : experiment T dt j1 j2 N s -> (k < N)%nat -> Norm (sample_of s p k) <= 1.
Proof.
  intros (_ & _ & r & u & HS & HT & _) Hk. unfold sample_of. destruct (nth_error (j_layers (s (S k))) p) as [l|] eqn:E.
  - unfold mags. rewrite (nth_error_nth _ _ _ (map_nth_error l_mag _ _ E)).
    destruct (run_normalised RK4 N j1 (s 0%nat) r u dt s (S k) p l HS eq_refl HT ltac:(lia) E) as [U|U].
    + unfold Norm. rewrite U, sqrt_1. lra.
    + rewrite U, (proj2 (Norm_zero_iff Zero) eq_refl). lra.
  - rewrite nth_overflow by (unfold mags; rewrite map_length; apply nth_error_None, E). rewrite (proj2 (Norm_zero_iff Zero) eq_refl). lra.
Qed.
Lemma average_bound {A} (a : pimm_args A) T dt j1 j2 ls H N s row : ls <> [] -> (forall l, In l ls -> 0 < moment l) -> experiment T dt j1 j2 N s -> pimm_result a ls H N s row ->
  Norm (pr_m_avg row) <= 1.
Proof.
  intros NE POS EX (P & Z & _ & _ & -> & _). eapply Rle_trans; [|right; apply (weights_one ls Z)].
  apply (norm_sum_le (weight ls) (fun p => sample_of s p (N - 1))).
  - intros l Hl. unfold weight. apply Rmult_le_pos; [left; apply POS, Hl|]. left. apply Rinv_0_lt_compat, total_moment_pos; assumption.
  - intros p. eapply sample_norm; [exact EX|lia].
Qed.
Lemma kin_in ls ls2 l2 : kin ls ls2 -> In l2 ls2 -> exists l, In l ls /\ moment l2 = moment l.
Proof.
  intros K Hl. apply In_nth_error in Hl. destruct Hl as [p Hp]. destruct (kin_nth _ _ _ _ K Hp) as (l & E & _ & T & M). exists l. split; [exact (nth_error_In _ _ E)|]. unfold moment. congruence.
Qed.
Lemma fields_average {A} rnd (a : pimm_args A) oe Hs st final rows : named (fst st) -> (forall l, In l (j_layers (fst st)) -> 0 < moment l) ->
  pimm_fields rnd a oe Hs st final rows -> Forall (fun row => Norm (pr_m_avg row) <= 1) rows.
Proof.
  intros NM POS F. induction F as [j pos|H Hs j pos j1 j2 N s row rows final PF EX PR PC IH]; [constructor|]. cbn [fst] in *.
  constructor; [exact (average_bound (proj1 PF) POS EX PR)|].
  destruct (measured _ _ _ _ _ _ _ _ _ _ NM PF (proj1 EX)) as (_ & _ & _ & K & NM2 & _). apply IH; [exact NM2|].
  intros l Hl. destruct (kin_in _ K Hl) as (l0 & Hl0 & ->). apply POS, Hl0.
Qed.

(** ** The frequency axis *)
Lemma late_length_same wait dt N (f : nat -> R) : length (map f (late wait dt N)) = length (late wait dt N).
Proof. apply map_length. Qed.
Lemma fields_axis {A} rnd (a : pimm_args A) oe Hs st final rows : pa_static a = false -> pimm_fields rnd a oe Hs st final rows ->
  forall i k row y f row' y' f', nth_error rows i = Some row -> nth_error rows k = Some row' -> pr_spectrum row = Some (y, f) -> pr_spectrum row' = Some (y', f') -> f' = f.
Proof.
  intros NS F. assert (X : forall row y f, In row rows -> pr_spectrum row = Some (y, f) -> exists N, IntegerPart (pa_simulation a / pa_int_step a) N /\
     f = map (bin_frequency (length (late (pa_wait a) (pa_int_step a) N)) (pa_int_step a)) (bins (length (late (pa_wait a) (pa_int_step a) N)) (pa_int_step a) (pa_max_frequency a))).
  { induction F as [j pos|H Hs j pos j1 j2 N s row rows final PF EX PR PC IH]; [intros ? ? ? []|]. intros r y f [<-|Hr] E; [|exact (IH r y f Hr E)].
    destruct PR as (_ & _ & _ & _ & _ & _ & S2 & _). destruct (S2 NS) as (y0 & f0 & E0 & (_ & _ & _ & CF)). rewrite E in E0. injection E0 as <- <-.
    exists N. split; [apply EX|]. rewrite CF. unfold whole_signal. rewrite map_length. reflexivity. }
  intros i k row y f row' y' f' Hi Hk E E'. destruct (X _ _ _ (nth_error_In _ _ Hi) E) as (N & IN & ->). destruct (X _ _ _ (nth_error_In _ _ Hk) E') as (N' & IN' & ->).
  rewrite (integer_part_det _ _ _ IN IN'). reflexivity.
Qed.
Lemma fields_lengths {A} rnd (a : pimm_args A) oe Hs st final rows : pa_static a = false -> pimm_fields rnd a oe Hs st final rows ->
  forall row y f, In row rows -> pr_spectrum row = Some (y, f) -> length y = length f.
Proof.
  intros NS F. induction F as [j pos|H Hs j pos j1 j2 N s row rows final PF EX PR PC IH]; [intros ? ? ? []|]. intros r y f [<-|Hr] E; [|exact (IH r y f Hr E)].
  destruct PR as (_ & _ & _ & _ & _ & _ & S2 & _). destruct (S2 NS) as (y0 & f0 & E0 & (_ & _ & CY & CF)). rewrite E in E0. injection E0 as <- <-. rewrite CY, CF, !map_length. reflexivity.
Qed.
(** The reported frequencies: multiples of the resolution, below the limit and below half the sampling rate, increasing. *)
Lemma bins_iff n dt fmax k : In k (bins n dt fmax) <-> (k < n / 2)%nat /\ bin_frequency n dt k <= fmax.
Proof.
  unfold bins. rewrite filter_In, in_seq. destruct (Rle_dec _ _); split; intros [A B]; try discriminate; split; try lia; try reflexivity; try assumption; lra.
Qed.

(** ** Splitting, independence *)
Lemma fields_app {A} rnd (a : pimm_args A) oe h1 h2 st final rows : pimm_fields rnd a oe (h1 ++ h2) st final rows <->
  exists mid r1 r2, rows = (r1 ++ r2)%list /\ pimm_fields rnd a oe h1 st mid r1 /\ pimm_fields rnd a oe h2 mid final r2.
Proof.
  split.
  - revert st rows. induction h1 as [|H h1 IH]; intros [j pos] rows F.
    + exists (j, pos), [], rows. split; [reflexivity|]. split; [constructor|exact F].
    + cbn [app] in F. inversion F as [|H' Hs' j' pos' j1 j2 N s row rs fin PF EX PR PC]; subst. destruct (IH _ _ PC) as (mid & r1 & r2 & -> & F1 & F2).
      exists mid, (row :: r1), r2. split; [reflexivity|]. split; [|exact F2]. econstructor; eassumption.
  - intros (mid & r1 & r2 & -> & F1 & F2). revert F2. induction F1 as [j pos|H Hs j pos j1 j2 N s row rows0 fin PF EX PR PC IH]; intros F2; [exact F2|].
    cbn [app]. econstructor; [exact PF|exact EX|exact PR|]. apply IH, F2.
Qed.
Lemma prepared_same rnd H oe d pos j k j1 : same_sample j k -> prepared_for rnd H oe d pos j j1 -> prepared_for rnd H oe d pos k j1.
Proof.
  intros (ks & Ek & LK & FK) (NE & ls & -> & L & F). rewrite Ek. cbn [j_layers set_j_log set_j_layers]. split; [destruct ks; [destruct (j_layers j); [exact NE|discriminate]|discriminate]|].
  exists ls. split; [reflexivity|]. cbn [j_layers set_j_log set_j_layers]. split; [congruence|]. intros p l' l1 Hl' Hl1. 
  destruct (nth_error (j_layers j) p) as [l|] eqn:El.
  - destruct (FK p l l' El Hl') as (ext & oe' & ->). destruct (F p l l1 El Hl1) as (m & KM & ->). exists m. split; [exact KM|reflexivity].
  - exfalso. apply nth_error_None in El. assert (p < length ks)%nat by (apply nth_error_Some; congruence). lia.
Qed.
Lemma weight_same j k : same_sample j k -> kin (j_layers j) (j_layers k).
Proof.
  intros (ks & Ek & LK & FK). rewrite Ek. cbn [j_layers set_j_log set_j_layers]. split; [exact LK|]. intros p l l2 A B. destruct (FK p l l2 A B) as (e & o & ->). repeat split.
Qed.
Lemma mapi_weight ls ls2 {B} (g : R -> nat -> B) : kin ls ls2 -> mapi (fun p l => g (weight ls2 l) p) 0 ls2 = mapi (fun p l => g (weight ls l) p) 0 ls.
Proof.
  intros K. rewrite (mapi_kin (fun p l => g (weight ls2 l) p) ls ls2 K).
  - apply mapi_ext. intros p l _. unfold weight. rewrite (kin_moment _ _ K). reflexivity.
  - intros p l l2 _ T M. unfold weight, moment. rewrite T, M. reflexivity.
Qed.
Lemma result_same {A} (a : pimm_args A) ls ls2 H N s row : kin ls ls2 -> pimm_result a ls H N s row -> pimm_result a ls2 H N s row.
Proof.
  intros K (P & Z & EH & ER & EM & S1 & S2 & F1 & F2). unfold pimm_result. rewrite (kin_moment _ _ K).
  rewrite (mapi_weight (fun w p => map (Scal w) (samples s N p)) K). rewrite (mapi_weight (fun w p => Scal w (sample_of s p (N - 1))) K).
  assert (EW : whole_signal ls2 (pa_direction a) (pa_wait a) (pa_int_step a) N s = whole_signal ls (pa_direction a) (pa_wait a) (pa_int_step a) N s).
  { unfold whole_signal. apply map_ext. intros k. f_equal. exact (mapi_weight (fun w p => w * along_part (pa_direction a) (sample_of s p k)) K). }
  rewrite EW. repeat (split; [assumption|]). split; [|exact F2]. intros FS. destruct (F1 FS) as (ys & E & L & C). exists ys. split; [exact E|]. split; [rewrite L; symmetry; apply K|].
  intros p l2 y Hl2 Hy. destruct (kin_nth _ _ _ _ K Hl2) as (l & Hl & _ & T & M). destruct (C p l y Hl Hy) as (f & X). exists f. unfold layer_signal in *.
  replace (weight ls2 l2) with (weight ls l); [exact X|]. unfold weight. rewrite (kin_moment _ _ K). unfold moment. rewrite T, M. reflexivity.
Qed.
Lemma fields_same {A} rnd (a : pimm_args A) oe H Hs j k pos final rows : same_sample j k -> pimm_fields rnd a oe (H :: Hs) (j, pos) final rows -> pimm_fields rnd a oe (H :: Hs) (k, pos) final rows.
Proof.
  intros S F. inversion F as [|H' Hs' j' pos' j1 j2 N s row rs fin PF EX PR PC]; subst. 
  econstructor; [exact (prepared_same S PF)|exact EX|exact (result_same (weight_same S) PR)|].
  replace (layerNo k) with (layerNo j); [exact PC|]. symmetry. apply (proj1 (weight_same S)).
Qed.

(** ** Arguments that never work *)
Lemma late_none T dt N : 0 < dt -> IntegerPart (T / dt) N -> late T dt N = [].
Proof.
  intros D I. unfold late. destruct (filter _ (seq 0 N)) as [|k ks] eqn:E; [reflexivity|]. exfalso.
  assert (X : In k (k :: ks)) by (left; reflexivity). rewrite <- E in X. apply filter_In in X. destruct X as [X Y]. apply in_seq in X. destruct (Rle_dec T (INR k * dt)) as [Q|]; [|discriminate].
  destruct I as [[I _]|[_ ->]]; [|lia]. assert (INR k < INR N) by (apply lt_INR; lia). assert (INR N * dt <= T). { apply (Rmult_le_compat_r dt) in I; [|lra]. replace (T / dt * dt) with T in I by (field; lra). exact I. }
  assert (INR k * dt < INR N * dt) by (apply Rmult_lt_compat_r; assumption). lra.
Qed.
Lemma wait_too_long {A} rnd (a : pimm_args A) oe H Hs st final rows : pa_static a = false -> pa_wait a = pa_simulation a -> 0 < pa_int_step a -> ~ pimm_fields rnd a oe (H :: Hs) st final rows.
Proof.
  intros NS W D F. inversion F as [|H' Hs' j' pos' j1 j2 N s row rs fin PF EX PR PC]; subst. destruct PR as (_ & _ & _ & _ & _ & _ & S2 & _). destruct (S2 NS) as (y & f & _ & (NE & _)).
  apply NE. unfold whole_signal. rewrite W, late_none; [reflexivity|exact D|apply EX].
Qed.
Lemma series_zero_length (ps : list resparams) T ms p0 : In p0 ps -> rp_l p0 = 0 -> forall r, calculate_resistance_series3 (strips_of ps) T ms <> Ok r.
Proof.
  intros Hp Z r E. unfold calculate_resistance_series3 in E. apply rbind_iff in E. destruct E as (s & E & _). unfold compute_resistance3 in E. apply rbind_iff in E. destruct E as (rs & E & _).
  cbn [sp_Rx0 strips_of] in E. rewrite map_length in E. apply In_nth_error in Hp. destruct Hp as [i Hi].
  set (f := fun '(rx0, ry0, amr, ahe, smr, w_l, ms) => (map (res_x rx0 amr smr) ms, map (res_y ry0 amr ahe smr w_l) ms)) in E.
  assert (X : forall n k rs, res_rows f (strips_of ps) ms n k = Ok rs -> (k <= i < k + n)%nat -> False).
  { clear rs E. induction n as [|n IH]; intros k rs E Hk; [lia|]. cbn [res_rows] in E. apply rbind_iff in E. destruct E as (row & ER & E). apply rbind_iff in E. destruct E as (rs' & E & _).
    destruct (Nat.eq_dec k i) as [->|NE]; [|apply (IH (S k) rs' E); lia]. unfold res_row in ER. apply rbind_iff in ER. destruct ER as (w & _ & ER). apply rbind_iff in ER. destruct ER as (l & EL & ER).
    unfold at_ in EL. cbn [sp_l strips_of] in EL. rewrite nth_error_map, Hi in EL. cbn in EL. injection EL as <-. rewrite Z in ER. unfold py_div in ER. destruct (Req_EM_T 0 0); [discriminate|congruence]. }
  apply (X _ _ _ E). assert (i < length ps)%nat by (apply nth_error_Some; congruence). lia.
Qed.
Lemma zero_length_fails rnd (a : pimm_args (list R)) oe H Hs st final rows p0 : pa_fn a = calculate_resistance_series3 -> In p0 (pa_params a) -> rp_l p0 = 0 ->
  ~ pimm_fields rnd a oe (H :: Hs) st final rows.
Proof.
  intros EF Hp Z F. inversion F as [|H' Hs' j' pos' j1 j2 N s row rs fin PF EX PR PC]; subst. destruct PR as (_ & _ & _ & (ms & _ & E) & _). rewrite EF in E. exact (series_zero_length _ _ _ _ Hp Z E).
Qed.
Lemma tail_zero {B} (xs ys : list B) : tail_samples 0 xs ys <-> ys = xs.
Proof.
  split.
  - intros (h & E & _ & L). specialize (L ltac:(lia)). cbn in L. destruct h; [symmetry; exact E|discriminate].
  - intros ->. exists []. split; [reflexivity|]. split; [lia|]. intros _. reflexivity.
Qed.

(** ** A sample at rest *)
Lemma rest_experiment T dt j1 N : named j1 -> j_log j1 = [] -> j_logLength j1 = 0%nat -> at_rest j1 -> 0 < dt -> j_layers j1 <> [] -> j_mode j1 <> MR_STRIP -> step_counts T dt dt N 1 ->
  exists j2 s, experiment T dt j1 j2 N s /\ mags (j_layers j2) = mags (j_layers j1) /\ forall p k, (k < N)%nat -> sample_of s p k = nth p (mags (j_layers j1)) Zero.
Proof.
  intros NM L0 L1 HR D NE MO HC. destruct (rest_run_exists T dt dt false RK4 j1 N 1 HR (Rlt_le _ _ D) NE MO HC ltac:(lia)) as (j2 & E).
  destruct (fresh_log T dt j1 j2 NM L0 L1 E) as (N' & s & EX & _). assert (N' = N) by (apply (integer_part_det (T / dt)); [apply EX|apply HC]). subst N'.
  exists j2, s. split; [exact EX|]. split; [exact (proj1 (rest_run T dt dt false RK4 j1 j2 HR (Rlt_le _ _ D) E))|].
  destruct EX as (_ & _ & r & u & HS & HT & _). assert (S0 : s 0%nat = j1).
  { destruct HS as (_ & -> & _). rewrite at_rest_prepared by exact HR. apply set_layers_id. }
  assert (Hr : r = RunSingle -> layerNo j1 = 1%nat).
  { destruct HS as (_ & _ & _ & ->). unfold runner_table. destruct u; try discriminate; destruct (layerNo j1) as [|[|n]]; try discriminate; reflexivity. }
  intros p k Hk. unfold sample_of. rewrite (proj2 (rest_trajectory r dt j1 N s HR S0 HT Hr (Rlt_le _ _ D) (S k) ltac:(lia))). reflexivity.
Qed.
Definition ex_sample : junction := ex_rest 1 0.
(** The same two layers in another field, with a pulse. *)
Definition ex_ready : junction :=
  set_j_layers [set_l_IECTop (cdrv 1) (set_l_Oersted (along_axis zaxis (field_pulse 50 (1 * 3))) (set_l_external (steady (CV 0 0 5)) (ex_layer "free" (CV 0 0 1))));
   set_l_IECBottom (cdrv 1) (set_l_Oersted (along_axis zaxis (field_pulse 50 (1 * 3))) (set_l_external (steady (CV 0 0 5)) (ex_layer "pinned" (CV 0 0 (-1)))))] ex_sample.
Lemma ex_prepared rnd : prepared_for rnd (CV 0 0 5) (along_axis zaxis (field_pulse 50 (1 * 3))) 0 0 ex_sample ex_ready.
Proof.
  split; [discriminate|]. exists (j_layers ex_ready). split; [reflexivity|]. split; [reflexivity|]. intros [|[|p]] l l1 A B; cbn in A, B.
  - injection A as <-. injection B as <-. exists (CV 0 0 1). split; [split; [reflexivity|contradiction]|reflexivity].
  - injection A as <-. injection B as <-. exists (CV 0 0 (-1)). split; [split; [reflexivity|contradiction]|reflexivity].
  - destruct p; discriminate.
Qed.
Lemma ex_ready_rest : at_rest ex_ready.
Proof.
  assert (U : forall z, z * z = 1 -> Unit (CV 0 0 z)). { intros z Hz. unfold Unit. rewrite norm_z. exact Hz. }
  intros [|[|p]] l H; cbn in H.
  - injection H as <-. split; [|split; reflexivity].
    split; [apply U; ring|]. split; [reflexivity|]. split; [reflexivity|]. split; [cbn; lra|]. split; [cbn; lra|].
    intros s. exists (FI (CV 0 0 5) (CV 0 0 (0 + stepUpdate 50 s 0 (1 * 3))) Zero Zero 0 0 1 0 0 Zero Zero). split; [repeat split|].
    unfold H_eff, IEC_total, H_iec, H_anis, H_tensor, IDMI_total, H_idmi, dipole_total. cbn -[Rmult Rplus Rdiv Rminus stepUpdate].
    unfold Cross. cbn [cx cy cz]. apply vec_eq; cbn [cx cy cz]; unfold Rdiv; ring.
  - injection H as <-. split; [|split; reflexivity].
    split; [apply U; ring|]. split; [reflexivity|]. split; [reflexivity|]. split; [cbn; lra|]. split; [cbn; lra|].
    intros s. exists (FI (CV 0 0 5) (CV 0 0 (0 + stepUpdate 50 s 0 (1 * 3))) Zero Zero 0 1 0 0 0 Zero Zero). split; [repeat split|].
    unfold H_eff, IEC_total, H_iec, H_anis, H_tensor, IDMI_total, H_idmi, dipole_total. cbn -[Rmult Rplus Rdiv Rminus stepUpdate].
    unfold Cross. cbn [cx cy cz]. apply vec_eq; cbn [cx cy cz]; unfold Rdiv; ring.
  - destruct p; discriminate.
Qed.
Lemma ex_sample_named : named ex_sample /\ ~ In "all"%string (ids ex_sample).
Proof.
  split.
  - split; [intros _; reflexivity|]. split; [intros _; cbn; auto|]. cbn. constructor; [cbn; intuition discriminate|]. constructor; [cbn; tauto|constructor].
  - cbn. intuition discriminate.
Qed.
Lemma counts_10_1 : step_counts 10 1 1 10 1.
Proof. repeat split; try lra; left; cbn; lra. Qed.
Definition ex_params : list resparams := [RP 10 0 2 0 0 1 1; RP 10 0 0 0 0 1 1].
Definition ex_pimm : pimm_args (list R) :=
  PIMM [CV 0 0 5] 1 ex_params zaxis 50 3 10 0 1 calculate_resistance_series3 0 1 true false.
Lemma half_moment : total_moment (j_layers ex_sample) = 2 /\ forall l, In l (j_layers ex_sample) -> moment l = 1 /\ weight (j_layers ex_sample) l = 1 / 2.
Proof.
  assert (M : forall l, In l (j_layers ex_sample) -> moment l = 1) by (intros l [<-|[<-|[]]]; unfold moment; cbn; ring).
  assert (T : total_moment (j_layers ex_sample) = 2) by (unfold total_moment; cbn -[moment]; rewrite !M by (cbn; auto); ring).
  split; [exact T|]. intros l Hl. split; [apply M, Hl|]. unfold weight. rewrite T, M by exact Hl. reflexivity.
Qed.
Lemma ex_pimm_runs rnd : exists j2 o, PIMM_procedure rnd ex_pimm (ex_sample, 0%nat) = ((j2, 0%nat), Ok o) /\
  po_Rx o = [[20]] /\ po_Ry o = [[1 / 2]] /\ po_m_avg o = [CV 0 0 0] /\ mags (j_layers j2) = [CV 0 0 1; CV 0 0 (-1)] /\
  calculate_resistance_series3 (strips_of ex_params) 1 (map (fun m => [m]) (mags (j_layers j2))) = Ok ([20], [1]).
Proof.
  destruct ex_sample_named as [NM NA]. pose proof (ex_prepared rnd) as PF. destruct (prepared_for_shape _ _ _ _ _ _ _ PF) as (SH & L0 & L1 & K).
  destruct (@rest_experiment 10 1 ex_ready 10 (named_shape _ _ SH NM) L0 L1 ex_ready_rest ltac:(lra) ltac:(discriminate) ltac:(discriminate) counts_10_1) as (j2 & s & EX & EM & ES).
  destruct (half_moment) as [TM WE].
  assert (S0 : forall k, (k < 10)%nat -> sample_of s 0 k = CV 0 0 1) by (intros k Hk; rewrite ES by exact Hk; reflexivity).
  assert (S1 : forall k, (k < 10)%nat -> sample_of s 1 k = CV 0 0 (-1)) by (intros k Hk; rewrite ES by exact Hk; reflexivity).
  set (l0 := set_l_IECTop (cdrv 1) (set_l_external (caxial (CV 0 0 0)) (ex_layer "free" (CV 0 0 1)))).
  set (l1 := set_l_IECBottom (cdrv 1) (set_l_external (caxial (CV 0 0 0)) (ex_layer "pinned" (CV 0 0 (-1))))).
  change (j_layers ex_sample) with [l0; l1] in *.
  assert (W0 : weight [l0; l1] l0 = 1 / 2) by (apply WE; cbn; auto). assert (W1 : weight [l0; l1] l1 = 1 / 2) by (apply WE; cbn; auto).
  assert (FN : pa_fn ex_pimm (strips_of (pa_params ex_pimm)) 1%nat [[Scal (1 / 2) (CV 0 0 1)]; [Scal (1 / 2) (CV 0 0 (-1))]] = Ok ([20], [1 / 2])).
  { cbn -[Rmult Rplus Rdiv pow INR IZR]. unfold calculate_resistance_series3, compute_resistance3. cbn -[Rmult Rplus Rdiv pow py_div IZR]. unfold py_div.
    destruct (Req_EM_T 1 0); [lra|]. cbn -[Rmult Rplus Rdiv pow IZR]. unfold sum_list, res_x, res_y. cbn -[Rmult Rplus Rdiv pow IZR]. f_equal. f_equal; f_equal; field. }
  set (row := PRow (A := list R) (CV 0 0 5) [20] [1 / 2] (CV 0 0 0)
     (Some (map (magnitude (whole_signal [l0; l1] zaxis 0 1 10 s)) (bins (length (whole_signal [l0; l1] zaxis 0 1 10 s)) 1 1), map (bin_frequency (length (whole_signal [l0; l1] zaxis 0 1 10 s)) 1) (bins (length (whole_signal [l0; l1] zaxis 0 1 10 s)) 1 1)))
     (Some (mapi (fun p l => map (Scal (weight [l0; l1] l)) (samples s 10 p)) 0 [l0; l1],
        mapi (fun p l => map (magnitude (layer_signal [l0; l1] zaxis 0 1 10 s p l)) (bins (length (layer_signal [l0; l1] zaxis 0 1 10 s p l)) 1 1)) 0 [l0; l1]))).
  assert (LA : late 0 1 10 <> []).
  { intros X. assert (Y : In 0%nat (late 0 1 10)) by (apply filter_In; split; [apply in_seq; lia|destruct (Rle_dec 0 (INR 0 * 1)) as [|N]; [reflexivity|exfalso; apply N; cbn; lra]]). rewrite X in Y. exact Y. }
  assert (PR : pimm_result ex_pimm [l0; l1] (CV 0 0 5) 10 s row).
  { split; [lia|]. split; [rewrite TM; lra|]. split; [reflexivity|]. split; [|split; [|split; [discriminate|split; [|split]]]].
    - exists [[Scal (1 / 2) (CV 0 0 1)]; [Scal (1 / 2) (CV 0 0 (-1))]]. split; [|exact FN].
      assert (TS : forall w v p, (forall k, (k < 10)%nat -> sample_of s p k = v) -> tail_samples 1 (map (Scal w) (samples s 10 p)) [Scal w v]).
      { intros w v p Hv. exists (map (Scal w) (map (sample_of s p) (seq 0 9))). split.
        - unfold samples. change (seq 0 10) with (seq 0 9 ++ [9%nat])%list. rewrite !map_app. cbn [map]. rewrite (Hv 9%nat) by lia. reflexivity.
        - rewrite !map_length, seq_length, samples_length. split; [intros _; reflexivity|lia]. }
      cbn [mapi]. rewrite W0, W1. constructor; [apply TS, S0|]. constructor; [apply TS, S1|constructor].
    - cbn [mapi pr_m_avg row]. rewrite W0, W1, (S0 (10 - 1)%nat), (S1 (10 - 1)%nat) by lia. cbn -[Rmult Rplus Rdiv]. apply vec_eq; cbn [cx cy cz]; field.
    - intros _. do 2 eexists. split; [reflexivity|]. split; [|split; [cbn; lra|split; reflexivity]]. intros X. apply map_eq_nil in X. contradiction.
    - intros _. eexists. split; [reflexivity|]. split; [reflexivity|]. intros p l y Hl Hy. rewrite mapi_nth, Hl in Hy. injection Hy as <-. eexists. split; [|split; [cbn; lra|split; reflexivity]]. intros X. apply map_eq_nil in X. contradiction.
    - intros [X|X]; discriminate. }
  assert (F : pimm_fields rnd ex_pimm (along_axis zaxis (field_pulse 50 (1 * 3))) [CV 0 0 5] (ex_sample, 0%nat) (j2, (0 + drawn (pa_disturbance ex_pimm) (layerNo ex_sample))%nat) [row]).
  { econstructor; [exact PF|exact EX|exact PR|constructor]. }
  assert (DZ : (0 + drawn (pa_disturbance ex_pimm) (layerNo ex_sample) = 0)%nat) by (cbn; unfold drawn; destruct (Req_EM_T 0 0); [reflexivity|congruence]). rewrite DZ in F.
  exists j2, (pimm_collect ex_pimm (ids ex_sample) [row]). split.
  - apply pimm_iff; [exact NM|exact NA|]. split; [cbn; lra|]. split; [cbn; lra|]. split; [reflexivity|]. exists [row]. split; [exact F|]. apply collect_output. exact (fields_good _ _ _ _ (ex_sample, 0%nat) _ _ NM F).
  - do 3 (split; [reflexivity|]). split; [rewrite EM; reflexivity|]. rewrite EM. cbn -[Rmult Rplus Rdiv pow INR IZR]. unfold calculate_resistance_series3, compute_resistance3. cbn -[Rmult Rplus Rdiv pow py_div IZR]. unfold py_div.
    destruct (Req_EM_T 1 0); [lra|]. cbn -[Rmult Rplus Rdiv pow IZR]. unfold sum_list, res_x, res_y. cbn -[Rmult Rplus Rdiv pow IZR]. f_equal. f_equal; f_equal; field.
Qed.
