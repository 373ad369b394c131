(** The procedures on the junction behind the front end. *)
From Verif Require Import P_Detrend P_Fit P_Geom P_PyUtils P_Resist P_Spectrum.
From Verif Require Export P_Prepare P_ProcMore P_VsdProps.
From Verif Require Import S_Prepare.
From Coq Require Import Psatz.
Open Scope R_scope.
Open Scope st_scope.

(** ** Layers of the stack *)
Definition matter (s : stack_form) (p : nat) (l : layer) : Prop :=
  l_id l = lname p /\ l_anis l = stack_axis s p /\ l_Ms l = sf_Ms s p /\ l_thickness l = sf_thickness s p / 1000000000 /\ l_demag l = P_Domains.film /\
  l_dipoleBottom l = null_tensor /\ l_dipoleTop l = null_tensor /\ l_damping l = sf_alpha s p /\ l_includeSTT l = false /\ l_includeSOT l = false /\
  quiet l /\ l_anisotropy l = steady_scalar (sf_K s p * 1000) /\ l_IECBottom l = steady_scalar (J_below s p) /\ l_IECTop l = steady_scalar (J_above s p) /\
  l_QuadBottom l = default_driver /\ l_QuadTop l = default_driver /\ l_Hdmi l = null_axial /\
  l_Hreserved l = null_axial /\ l_IDMIBottom l = null_axial /\ l_IDMITop l = null_axial.
Lemma matter_static s p l l' : static l l' -> matter s p l -> matter s p l'.
Proof. intros (m & c & rp & bf & ->) H. exact H. Qed.
Lemma matter_set s p l m oe ext : matter s p l -> matter s p (set_l_mag m (set_l_Oersted oe (set_l_external ext l))).
Proof. intros H. exact H. Qed.
Lemma stack_matter rng nsrc s p l : stack_layer rng nsrc s p l -> matter s p l /\ l_mag l = stack_axis s p.
Proof.
  intros (l0 & E & ->). unfold Layer_plain, mkLayer in E. rewrite vlength_Norm, stack_axis_unit in E. destruct (Req_EM_T 1 0) as [X|_]; [lra|]. injection E as <-. repeat split.
Qed.
Lemma stack_field_eq k K Ms th Jb Jt (H oe v b top : cvec) :
  Sum [H; H_anis k K Ms v; Plus (H_iec Jb 0 (Ms * th) v b) (H_iec Jt 0 (Ms * th) v top); Plus (H_idmi Zero (Ms * th) b) (H_idmi Zero (Ms * th) top);
       oe; Zero; Zero; Scal (-1) (H_tensor P_Domains.film Ms v); Scal (-1) (Plus (H_tensor null_tensor Ms b) (H_tensor null_tensor Ms top)); Zero] =
  Sum [H; oe; Scal (2 * K / Ms * Dot k v) k; Scal (- (Ms / S_Layer.mu0)) (CV 0 0 (cz v)); Scal (Jb / (Ms * th)) b; Scal (Jt / (Ms * th)) top].
Proof.
  unfold H_anis, H_iec, H_idmi, H_tensor, MatVec, P_Domains.film, null_tensor. unfold Rdiv. rewrite !Rmult_1_l. generalize (/ S_Layer.mu0) (/ (Ms * th)) (/ Ms). intros u w x. destruct H, v, b, top, k, oe. apply vec_eq; cbn; ring.
Qed.
Lemma matter_rhs s p l H Hoe t v b top d : matter s p l -> l_external l = steady H -> getCurrentAxialDrivers (l_Oersted l) t = Ok Hoe ->
  rhs l t v b top d <-> sf_Ms s p <> 0 /\ sf_thickness s p <> 0 /\ d = stack_rate s p H Hoe v b top.
Proof.
  intros (E1 & E2 & E3 & E4 & E5 & E6 & E7 & E8 & E9 & E10 & E11 & E12 & E13 & E14 & E15 & E16 & E18 & E19 & E20 & E21) EX EO.
  assert (TH : sf_thickness s p / 1000000000 <> 0 <-> sf_thickness s p <> 0) by (split; intros X Y; apply X; [rewrite Y; lra|lra]).
  unfold rhs. split.
  - intros (i & HI & M & T & L). rewrite E3 in M. rewrite E4 in T. split; [exact M|]. split; [apply TH, T|].
    destruct HI as (I1 & I2 & I3 & I4 & I5 & I6 & I7 & I8 & I9 & I10 & I11).
    rewrite EX in I1. rewrite EO in I2. rewrite E18 in I3. rewrite E19 in I4. rewrite E12 in I5. rewrite E13 in I6. rewrite E14 in I7. rewrite E15 in I8. rewrite E16 in I9. rewrite E20 in I10. rewrite E21 in I11.
    destruct i as [ext oe dmi res Kv Jb Jt J2b J2t Db Dt]. cbn [fi_ext fi_oe fi_dmi fi_res fi_K fi_Jb fi_Jt fi_J2b fi_J2t fi_Db fi_Dt] in *.
    injection I1 as <-. injection I2 as <-. injection I3 as <-. injection I4 as <-. injection I5 as <-. injection I6 as <-. injection I7 as <-. injection I8 as <-. injection I9 as <-. injection I10 as <-. injection I11 as <-.
    inversion L as [_ _ Ed|I X|hdl hfl X1 X|I X1 X]; try congruence. subst d. rewrite E8. unfold stack_rate. f_equal.
    unfold H_eff, IEC_total, IDMI_total, dipole_total, stack_field. cbn [fi_ext fi_oe fi_dmi fi_res fi_K fi_Jb fi_Jt fi_J2b fi_J2t fi_Db fi_Dt].
    rewrite E2, E3, E4, E5, E6, E7. cbv zeta. rewrite <- stack_field_eq. destruct H. reflexivity.
  - intros (M & T & ->). exists (FI H Hoe Zero Zero (sf_K s p * 1000) (J_below s p) (J_above s p) 0 0 Zero Zero). split.
    { unfold inputs_at. cbn [fi_ext fi_oe fi_dmi fi_res fi_K fi_Jb fi_Jt fi_J2b fi_J2t fi_Db fi_Dt].
      rewrite EX, EO, E12, E13, E14, E15, E16, E18, E19, E20, E21. destruct H. repeat split. }
    rewrite E3, E4. split; [exact M|]. split; [apply TH, T|].
    set (i := FI H Hoe Zero Zero (sf_K s p * 1000) (J_below s p) (J_above s p) 0 0 Zero Zero).
    replace (stack_rate s p H Hoe v b top) with (LLG_plain (l_damping l) v (H_eff l i v b top (dipole_total l b top) Zero)); [apply llg_plain; assumption|].
    rewrite E8. unfold stack_rate. f_equal. unfold H_eff, IEC_total, IDMI_total, dipole_total, stack_field, i. cbn [fi_ext fi_oe fi_dmi fi_res fi_K fi_Jb fi_Jt fi_J2b fi_J2t fi_Db fi_Dt].
    rewrite E2, E3, E4, E5, E6, E7. cbv zeta. apply stack_field_eq.
Qed.

(** ** The junction between two fields *)
Definition stacked_up (s : stack_form) (j : junction) : Prop :=
  j_mode j = MR_NONE /\ layerNo j = sf_N s /\ forall p l, nth_error (j_layers j) p = Some l -> matter s p l /\ UnitOrZero (l_mag l).
Lemma stacked_ids s j : stacked_up s j -> ids j = map lname (seq 0 (sf_N s)).
Proof.
  intros (_ & L & H). unfold ids. apply list_ext. intros p. rewrite !nth_error_map.
  destruct (nth_error (j_layers j) p) as [l|] eqn:E.
  - assert (p < sf_N s)%nat by (rewrite <- L; apply nth_error_Some; congruence). rewrite (nth_error_nth' _ 0%nat) by (rewrite seq_length; assumption). rewrite seq_nth by assumption. cbn [option_map Nat.add]. f_equal. apply (H p l E).
  - apply nth_error_None in E. unfold layerNo in L. rewrite (proj2 (nth_error_None (seq 0 (sf_N s)) p)) by (rewrite seq_length; lia). reflexivity.
Qed.
Lemma stacked_named s j : stacked_up s j -> named j /\ ~ In "all"%string (ids j).
Proof.
  intros H. split; [split; [|split]|].
  - unfold tag_ok. destruct (j_layers j) as [|a [|b r]]; try exact I. intros X. destruct H as (Y & _). congruence.
  - intros X. destruct H as (Y & _). congruence.
  - rewrite (stacked_ids s j H). apply FinFun.Injective_map_NoDup; [intros a b; apply lname_inj|apply seq_NoDup].
  - rewrite (stacked_ids s j H). intros X. apply in_map_iff in X. destruct X as (p & X & _). discriminate.
Qed.
Lemma stack_of_up rng nsrc s j ps : stack_of rng nsrc s j ps -> stacked_up s j /\ (forall p l, nth_error (j_layers j) p = Some l -> l_mag l = stack_axis s p) /\ ps = map (strip s) (seq 0 (sf_N s)) /\ (0 < sf_N s)%nat.
Proof.
  intros (ls & A & B & C & ->). destruct ls as [|l0 ls]; [discriminate|]. injection A as <-. split; [|split; [|split; [reflexivity|cbn in B; lia]]].
  - split; [reflexivity|]. split; [exact B|]. intros p l Hl. destruct (stack_matter _ _ _ _ _ (C p l Hl)) as [M E]. split; [exact M|]. left. unfold Unit. rewrite E. pose proof (stack_axis_unit s p) as U. unfold Norm in U.
    rewrite <- (sqrt_sqrt (Norm2 (stack_axis s p))), U; [lra|]. apply Norm2_nonneg.
  - intros p l Hl. apply (stack_matter _ _ _ _ _ (C p l Hl)).
Qed.

Section Fields.
Context (rnd : nat -> R) (s : stack_form).
Definition ready (H : cvec) (oe : adriver) (j : junction) : Prop :=
  j_mode j = MR_NONE /\ layerNo j = sf_N s /\ j_log j = [] /\ j_logLength j = 0%nat /\
  forall p l, nth_error (j_layers j) p = Some l -> matter s p l /\ l_external l = steady H /\ l_Oersted l = oe.
Lemma prepared_up H oe d pos j j1 : stacked_up s j -> prepared_for rnd H oe d pos j j1 -> ready H oe j1.
Proof.
  intros (M & L & C) (_ & ls & -> & LL & P). split; [exact M|]. split; [unfold layerNo; cbn; rewrite LL; exact L|]. split; [reflexivity|]. split; [reflexivity|].
  intros p l1 Hl1. cbn [j_layers set_j_log set_j_layers] in Hl1. destruct (nth_error (j_layers j) p) as [l|] eqn:E.
  - destruct (P p l l1 E Hl1) as (m & _ & ->). split; [apply matter_set, (C p l E)|]. split; reflexivity.
  - exfalso. apply nth_error_None in E. assert (p < length ls)%nat by (apply nth_error_Some; congruence). lia.
Qed.
Lemma kick_nonzero m k : small_noise rnd -> UnitOrZero m -> Plus m (Scal (/ 1000000) (CV (rnd k) (rnd (k + 1)%nat) (rnd (k + 2)%nat))) <> Zero.
Proof.
  intros SN U E. pose proof (SN k) as A. pose proof (SN (k + 1)%nat) as B. pose proof (SN (k + 2)%nat) as C.
  assert (Q : forall x, 0 < Rabs x < 100000 -> x <> 0 /\ x * x < 10000000000).
  { intros x [X Y]. split; [intros ->; rewrite Rabs_R0 in X; lra|]. apply Rabs_def2 in Y. nra. }
  apply Q in A. apply Q in B. apply Q in C. revert A B C E. generalize (rnd k) (rnd (k + 1)%nat) (rnd (k + 2)%nat). intros a b c [A A'] [B B'] [C C'] E.
  destruct m as [x y z]. unfold Plus, Scal, Zero in E. cbn in E. injection E as E1 E2 E3. destruct U as [U|U].
  - unfold Norm2, Dot in U. cbn in U. assert (x = - (/ 1000000 * a)) by lra. assert (y = - (/ 1000000 * b)) by lra. assert (z = - (/ 1000000 * c)) by lra. subst. nra.
  - unfold Zero in U. injection U as -> -> ->. apply A. lra.
Qed.
Lemma prepared_exists H oe pos j : small_noise rnd -> stacked_up s j -> (0 < sf_N s)%nat -> exists j1, prepared_for rnd H oe (/ 1000000) pos j j1.
Proof.
  intros SN (M & L & C) HN. set (v := fun p (l : layer) => Plus (l_mag l) (Scal (/ 1000000) (CV (rnd (pos + 3 * p)%nat) (rnd (pos + 3 * p + 1)%nat) (rnd (pos + 3 * p + 2)%nat)))).
  exists (set_j_log [] 0 (set_j_layers (mapi (fun p l => set_l_mag (Scal (/ Norm (v p l)) (v p l)) (set_l_Oersted oe (set_l_external (steady H) l))) 0 (j_layers j)) j)).
  split; [intros X; unfold layerNo in L; rewrite X in L; cbn in L; lia|]. eexists. split; [reflexivity|]. split; [apply mapi_length|].
  intros p l l1 Hl Hl1. rewrite mapi_nth, Hl in Hl1. cbn [option_map Nat.add] in Hl1. injection Hl1 as <-. eexists. split; [|reflexivity]. split; [lra|]. intros _. split; [lra|]. cbv zeta.
  split; [|reflexivity]. apply kick_nonzero; [exact SN|apply (C p l Hl)].
Qed.
Lemma ready_named H oe j : ready H oe j -> named j.
Proof.
  intros (M & L & _ & _ & C). assert (S : ids j = map lname (seq 0 (sf_N s))).
  { unfold ids. apply list_ext. intros p. rewrite !nth_error_map. destruct (nth_error (j_layers j) p) as [l|] eqn:E.
    - assert (p < sf_N s)%nat by (rewrite <- L; apply nth_error_Some; congruence). rewrite (nth_error_nth' _ 0%nat) by (rewrite seq_length; assumption). rewrite seq_nth by assumption. cbn [option_map Nat.add]. f_equal. apply (C p l E).
    - apply nth_error_None in E. unfold layerNo in L. rewrite (proj2 (nth_error_None (seq 0 (sf_N s)) p)) by (rewrite seq_length; lia). reflexivity. }
  split; [|split].
  - unfold tag_ok. destruct (j_layers j) as [|a [|b r]]; try exact I. congruence.
  - intros X. congruence.
  - rewrite S. apply FinFun.Injective_map_NoDup; [intros a b; apply lname_inj|apply seq_NoDup].
Qed.
Lemma ready_start H oe j1 n st r used : ready H oe j1 -> selects RK4 n j1 (st 0%nat) r used ->
  r = runner_table (layerNo j1) RK4 /\ j_layers (st 0%nat) = j_layers j1.
Proof.
  intros (_ & _ & _ & _ & C) SEL.
  assert (QU : forall l, In l (j_layers j1) -> quiet l) by (intros l Hl; apply In_nth_error in Hl; destruct Hl as [p Hp]; apply (C p l Hp)).
  split.
  - destruct SEL as (_ & _ & [_ T] & ->). rewrite T; [reflexivity|]. intros (l & Hl & [X|X]); destruct (QU l Hl); congruence.
  - destruct SEL as (_ & -> & _). cbn [j_layers set_j_layers]. rewrite <- (map_id (j_layers j1)) at 2. apply map_ext_in. intros l Hl. unfold prepared. destruct (QU l Hl) as [_ Q].
    destruct (Req_EM_T (l_nScale l) 0); [reflexivity|contradiction].
Qed.
Lemma experiment_up H oe T dt j1 j2 n st : ready H oe j1 -> experiment T dt j1 j2 n st -> (0 < n)%nat -> stacked_up s j2.
Proof.
  intros RD EX Hn. assert (SH : shape j1 j2).
  { destruct (fresh_log T dt j1 j2 (ready_named _ _ _ RD) (proj1 (proj2 (proj2 RD))) (proj1 (proj2 (proj2 (proj2 RD)))) (proj1 EX)) as (? & ? & _ & X & _). exact X. }
  destruct EX as (_ & _ & r & used & SEL & TR & EL). destruct (ready_start _ _ _ _ _ _ _ RD SEL) as [_ E0]. destruct (traj_static _ _ _ _ n TR (le_n n)) as (_ & LN & ST).
  destruct RD as (M & L & _ & _ & C). split; [destruct SH as (_ & X & _); congruence|]. split; [unfold layerNo; rewrite EL, LN, E0; exact L|].
  intros p l Hl. rewrite EL in Hl. destruct (nth_error (j_layers (st 0%nat)) p) as [l0|] eqn:E1; [|exfalso; apply nth_error_None in E1; assert (p < length (j_layers (st n)))%nat by (apply nth_error_Some; congruence); lia].
  split; [apply (matter_static _ _ _ _ (ST p l0 l E1 Hl)); rewrite E0 in E1; apply (C p l0 E1)|].
  exact (run_normalised RK4 n j1 (st 0%nat) r used dt st n p l SEL eq_refl TR ltac:(lia) Hl).
Qed.
Lemma experiment_needs H oe T dt j1 j2 n st : ready H oe j1 -> (forall t, exists v, getCurrentAxialDrivers oe t = Ok v) -> experiment T dt j1 j2 n st -> (0 < n)%nat ->
  forall p, (p < sf_N s)%nat -> sf_Ms s p <> 0 /\ sf_thickness s p <> 0.
Proof.
  intros RD HO EX Hn p Hp. destruct EX as (_ & _ & r & used & SEL & TR & EL). destruct (ready_start _ _ _ _ _ _ _ RD SEL) as [-> E0].
  destruct RD as (M & L & _ & _ & C). specialize (TR 0%nat Hn). replace (layerNo j1) with (layerNo (st 0%nat)) in TR by (unfold layerNo; rewrite E0; reflexivity).
  assert (LN : length (j_layers (st 1%nat)) = length (j_layers (st 0%nat))) by (apply (step_static _ _ _ _ _ TR)).
  destruct (nth_error (j_layers (st 0%nat)) p) as [l|] eqn:E1; [|exfalso; apply nth_error_None in E1; rewrite E0 in E1; unfold layerNo in L; lia].
  destruct (nth_error (j_layers (st 1%nat)) p) as [l'|] eqn:E2; [|exfalso; apply nth_error_None in E2; rewrite LN, E0 in E2; unfold layerNo in L; lia].
  destruct (P_Domains.spins_step _ _ _ _ _ p l l' TR eq_refl E1 E2) as (b & top & (f1 & _ & _ & _ & G & _) & _). rewrite E0 in E1. destruct (C p l E1) as (MA & EXT & OE).
  destruct (HO (INR 0 * dt)) as [w Hw]. rewrite <- OE in Hw. apply (matter_rhs _ _ _ _ _ _ _ _ _ _ MA EXT Hw) in G. split; apply G.
Qed.
Lemma experiment_exists H oe T dt j1 n : ready H oe j1 -> (0 < sf_N s)%nat -> (forall t, exists v, getCurrentAxialDrivers oe t = Ok v) ->
  (forall p, (p < sf_N s)%nat -> sf_Ms s p <> 0 /\ sf_thickness s p <> 0) -> 0 <= dt -> step_counts T dt dt n 1 ->
  exists j2 st, experiment T dt j1 j2 n st.
Proof.
  intros RD HN HO HM HD HC. assert (RD' := RD). destruct RD' as (M & L & L0 & L1 & C).
  destruct (run_exists T dt dt false RK4 j1 n 1 HD) as [j2 ER].
  { intros X. unfold layerNo in L. rewrite X in L. cbn in L. lia. } { congruence. } { exact HC. } { lia. }
  { intros l Hl. apply In_nth_error in Hl. destruct Hl as [p Hp]. destruct (C p l Hp) as (MA & EXT & OE). assert (Hp' : (p < sf_N s)%nat) by (rewrite <- L; apply nth_error_Some; congruence).
    split; [|split].
    - intros t m b top. destruct (HO t) as [w Hw]. rewrite <- OE in Hw. eexists. apply (matter_rhs _ _ _ _ _ _ _ _ _ _ MA EXT Hw). destruct (HM p Hp'). auto.
    - apply MA.
    - destruct MA as (_ & _ & _ & _ & _ & _ & _ & _ & _ & _ & [Q _] & _). congruence. }
  destruct (fresh_log T dt j1 j2 (ready_named _ _ _ RD) L0 L1 ER) as (n' & st & EX & _). exists j2, st. destruct (P_Cache.step_counts_unique _ _ _ _ _ _ _ (proj1 (proj2 EX)) HC) as [<- _]. exact EX.
Qed.
End Fields.

(** ** One field of the pulse procedure *)
Lemma stacked_moment s j : stacked_up s j -> total_moment (j_layers j) = stack_moment s / 1000000000.
Proof.
  intros (_ & L & C). unfold total_moment, stack_moment. unfold layerNo in L. rewrite <- L. clear L.
  assert (X : forall ls a, (forall p l, nth_error ls p = Some l -> matter s (a + p) l) ->
    fold_right (fun l x => moment l + x) 0 ls = fold_right (fun p x => sf_thickness s p * sf_Ms s p + x) 0 (seq a (length ls)) / 1000000000).
  { induction ls as [|l ls IH]; intros a Hls; cbn [fold_right length seq]; [lra|]. rewrite (IH (S a)); [|intros p x Hx; replace (S a + p)%nat with (a + S p)%nat by lia; apply Hls; exact Hx].
    destruct (Hls 0%nat l eq_refl) as (_ & _ & EM & ET & _). rewrite Nat.add_0_r in EM, ET. unfold moment. rewrite EM, ET. field. }
  apply X. intros p l Hl. apply (C p l Hl).
Qed.
Lemma strips_row s ms p : (p < length ms)%nat -> length ms = sf_N s -> sf_length s p <> 0 ->
  exists r, @res_row (list cvec) (strips_of (map (strip s) (seq 0 (sf_N s)))) ms p = Ok r.
Proof.
  intros Hp L NZ. unfold res_row, strips_of, at_, row_. cbn [sp_w sp_l sp_Rx0 sp_AMR sp_SMR sp_Ry0 sp_AHE].
  assert (X : nth_error (seq 0 (sf_N s)) p = Some p) by (rewrite (nth_error_nth' _ 0%nat) by (rewrite seq_length; lia); rewrite seq_nth by lia; reflexivity).
  rewrite !map_map, !nth_error_map, X. cbn [option_map rbind strip rp_w rp_l rp_Rxx0 rp_Ramr rp_Rsmr rp_Rxy0 rp_Rahe]. unfold py_div.
  destruct (Req_EM_T (sf_length s p / 1000000) 0) as [Z|_]; [exfalso; apply NZ; lra|]. cbn [rbind]. destruct (nth_error ms p) as [m|] eqn:E; [|apply nth_error_None in E; lia]. cbn [rbind]. eauto.
Qed.
Lemma series_ok s T ms : length ms = sf_N s -> (forall p, (p < sf_N s)%nat -> sf_length s p <> 0) ->
  exists r, calculate_resistance_series3 (strips_of (map (strip s) (seq 0 (sf_N s)))) T ms = Ok r.
Proof.
  intros L NZ. unfold calculate_resistance_series3, compute_resistance3. cbn [sp_Rx0 strips_of]. rewrite !map_length, seq_length.
  set (f := fun '(rx0, ry0, amr, ahe, smr, w_l, ms) => (map (res_x rx0 amr smr) ms, map (res_y ry0 amr ahe smr w_l) ms)).
  assert (X : forall n k, (k + n <= sf_N s)%nat -> exists rs, res_rows f (strips_of (map (strip s) (seq 0 (sf_N s)))) ms n k = Ok rs).
  { induction n as [|n IH]; intros k Hk; cbn [res_rows]; [eauto|]. destruct (strips_row s ms k) as [r Er]; [lia|exact L|apply NZ; lia|]. rewrite Er. cbn [rbind].
    destruct (IH (S k) ltac:(lia)) as [rs Ers]. rewrite Ers. cbn [rbind]. eauto. }
  destruct (X (sf_N s) 0%nat (le_n _)) as [rs E]. rewrite E. cbn [rbind]. eauto.
Qed.
Lemma late_some w dt n : 0 < dt -> 0 < w -> (late w dt n <> [] <-> w <= INR (n - 1) * dt).
Proof.
  intros HD HW. unfold late. split.
  - intros X. destruct (filter _ (seq 0 n)) as [|k ks] eqn:E; [congruence|]. assert (Y : In k (k :: ks)) by (left; reflexivity). rewrite <- E in Y. apply filter_In in Y. destruct Y as [Y Z]. apply in_seq in Y.
    destruct (Rle_dec w (INR k * dt)) as [Q|]; [|discriminate]. assert (INR k <= INR (n - 1)) by (apply le_INR; lia). nra.
  - intros X E. assert (N0 : (0 < n - 1)%nat) by (destruct (n - 1)%nat; [cbn in X; lra|lia]).
    assert (Y : In (n - 1)%nat []) by (rewrite <- E; apply filter_In; split; [apply in_seq; lia|]; destruct (Rle_dec w (INR (n - 1) * dt)); [reflexivity|contradiction]). destruct Y.
Qed.
Lemma pulse_ok a amp stop t : exists v, getCurrentAxialDrivers (along_axis a (field_pulse amp stop)) t = Ok v.
Proof. rewrite pulse_value. eauto. Qed.
Lemma result_exists c Hs s a Hoe fmax H j n st : stacked_up s j -> (0 < sf_N s)%nat -> (0 < n)%nat -> stack_moment s <> 0 -> (forall p, (p < sf_N s)%nat -> sf_length s p <> 0) -> 0 < cf_step c ->
  4 / 1000000000 <= INR (n - 1) * cf_step c ->
  exists row, pimm_result (pulse_settings c Hs (map (strip s) (seq 0 (sf_N s))) a Hoe fmax) (j_layers j) H n st row.
Proof.
  intros UP HN Hn SM SL HD HL. set (pa := pulse_settings c Hs (map (strip s) (seq 0 (sf_N s))) a Hoe fmax). set (ls := j_layers j).
  set (ms := map (slice_last 100) (mapi (fun p l => map (Scal (weight ls l)) (samples st n p)) 0 ls)).
  assert (LS : length ls = sf_N s) by apply UP.
  destruct (series_ok s (length (hd [] ms)) ms) as [[rx ry] ER]; [unfold ms; rewrite map_length, mapi_length; exact LS|exact SL|].
  set (sig := whole_signal ls a (4 / 1000000000) (cf_step c) n st).
  exists (PRow H rx ry (Sum (mapi (fun p l => Scal (weight ls l) (sample_of st p (n - 1))) 0 ls))
    (Some (map (magnitude sig) (bins (length sig) (cf_step c) (fmax * 1000000000)), map (bin_frequency (length sig) (cf_step c)) (bins (length sig) (cf_step c) (fmax * 1000000000)))) None).
  split; [exact Hn|]. split; [unfold ls; rewrite (stacked_moment s j UP); lra|]. split; [reflexivity|]. split; [exists ms; split; [apply tails_iff; reflexivity|exact ER]|]. split; [reflexivity|].
  split; [discriminate|]. split; [|split; [intros [X _]; discriminate|reflexivity]]. intros _. do 2 eexists. split; [reflexivity|]. split; [|split; [cbn; lra|split; reflexivity]].
  cbn [pa_direction pa_wait pa_int_step pulse_settings pa]. intros X. unfold whole_signal in X. apply map_eq_nil in X. revert X. apply (late_some (4 / 1000000000) (cf_step c) n HD ltac:(lra)), HL.
Qed.
Lemma fields_exist rnd c Hs0 s a Hoe fmax n : small_noise rnd -> (0 < sf_N s)%nat -> stack_moment s <> 0 -> (forall p, (p < sf_N s)%nat -> sf_Ms s p <> 0 /\ sf_thickness s p <> 0 /\ sf_length s p <> 0) -> 0 < cf_step c ->
  step_counts (cf_time c / 1000000000) (cf_step c) (cf_step c) n 1 -> 4 / 1000000000 <= INR (n - 1) * cf_step c ->
  forall amp stop Hs j pos, stacked_up s j -> exists final rows,
    pimm_fields rnd (pulse_settings c Hs0 (map (strip s) (seq 0 (sf_N s))) a Hoe fmax) (along_axis a (field_pulse amp stop)) Hs (j, pos) final rows.
Proof.
  intros SN HN SM SL HD HC HL amp stop. assert (Hn : (0 < n)%nat) by (destruct n; [cbn in HL; lra|lia]).
  induction Hs as [|H Hs IH]; intros j pos UP; [exists (j, pos), []; constructor|].
  destruct (prepared_exists rnd s H (along_axis a (field_pulse amp stop)) pos j SN UP HN) as [j1 PF]. pose proof (prepared_up _ _ _ _ _ _ _ _ UP PF) as RD.
  destruct (experiment_exists s H _ (cf_time c / 1000000000) (cf_step c) j1 n RD HN (pulse_ok a amp stop)) as (j2 & st & EX); [intros p Hp; split; apply (SL p Hp)|lra|exact HC|].
  destruct (result_exists c Hs0 s a Hoe fmax H j n st UP HN Hn SM) as [row PR]; [intros p Hp; apply (SL p Hp)|exact HD|exact HL|].
  destruct (IH j2 (pos + drawn (/ 1000000) (layerNo j))%nat (experiment_up _ _ _ _ _ _ _ _ _ RD EX Hn)) as (final & rows & F). exists final, (row :: rows).
  econstructor; [exact PF|exact EX|exact PR|exact F].
Qed.
Lemma fields_need rnd c Hs0 s a Hoe fmax amp stop H Hs j pos final rows : (0 < sf_N s)%nat -> stacked_up s j -> 0 < cf_step c ->
  pimm_fields rnd (pulse_settings c Hs0 (map (strip s) (seq 0 (sf_N s))) a Hoe fmax) (along_axis a (field_pulse amp stop)) (H :: Hs) (j, pos) final rows ->
  stack_moment s <> 0 /\ (forall p, (p < sf_N s)%nat -> sf_Ms s p <> 0 /\ sf_thickness s p <> 0 /\ sf_length s p <> 0) /\
  exists n, step_counts (cf_time c / 1000000000) (cf_step c) (cf_step c) n 1 /\ 4 / 1000000000 <= INR (n - 1) * cf_step c.
Proof.
  intros HN UP HD F. assert (F' := F). inversion F' as [|H' Hs' j' pos' j1 j2 n st row rs fin PF EX PR PC]; subst. clear F'.
  pose proof (prepared_up _ _ _ _ _ _ _ _ UP PF) as RD. assert (PR' := PR). destruct PR' as (Hn & TM & _ & _ & _ & _ & S2 & _).
  split; [intros X; apply TM; rewrite (stacked_moment s j UP), X; lra|]. split.
  - intros p Hp. destruct (experiment_needs s H _ _ _ _ _ _ _ RD (pulse_ok a amp stop) EX Hn p Hp) as [A B]. split; [exact A|]. split; [exact B|].
    intros Z. refine (zero_length_fails (strip s p) _ _ _ F); [reflexivity| |].
    + cbn [pa_params pulse_settings]. apply in_map, in_seq. lia.
    + cbn [rp_l strip]. rewrite Z. lra.
  - exists n. split; [apply EX|]. destruct (S2 eq_refl) as (y & f & _ & (NE & _)). cbn [pa_direction pa_wait pa_int_step pulse_settings] in NE.
    apply (late_some (4 / 1000000000) (cf_step c) n HD ltac:(lra)). intros X. apply NE. unfold whole_signal. rewrite X. reflexivity.
Qed.

(** ** The two simulations *)
Lemma scan_units c th ph : amplitude_scan (cf_Hmin c * 10 ^ 3) (cf_Hmax c * 10 ^ 3) (cf_Hsteps c) th ph false = amplitude_scan (cf_Hmin c * 1000) (cf_Hmax c * 1000) (cf_Hsteps c) th ph false.
Proof. replace (10 ^ 3) with 1000 by ring. reflexivity. Qed.
Lemma settings_eq c Hs ps a Hoe fmax :
  PIMM Hs (cf_step c) ps a (Hoe * 10 ^ 3) 3 (cf_time c / 10 ^ 9) (4 / 10 ^ 9) (fmax * 10 ^ 9) calculate_resistance_series3 (/ 10 ^ 6) 100 false false = pulse_settings c Hs ps a Hoe fmax.
Proof. unfold pulse_settings. replace (10 ^ 3) with 1000 by ring. replace (10 ^ 9) with 1000000000 by ring. replace (10 ^ 6) with 1000000 by ring. reflexivity. Qed.
Lemma pimm_sim_iff rng nsrc rnd s c Hoeaxis Hoe fmax Hscan freqs spec mag :
  simulate_pimm rng nsrc rnd s c Hoeaxis Hoe fmax = Ok (Hscan, freqs, spec, mag) <-> pulse_run rng nsrc rnd s c Hoeaxis Hoe fmax Hscan freqs spec mag.
Proof.
  unfold simulate_pimm, get_pimm_data, pulse_run, scanned. split.
  - intros E. apply rbind_iff in E. destruct E as ([[[sp fr] out] hs] & E & E'). injection E' as -> -> -> <-.
    apply rbind_iff in E. destruct E as ([th ph] & EA & E). apply rbind_iff in E. destruct E as ([hs Hs] & ES & E). apply rbind_iff in E. destruct E as ([j ps] & EP & E).
    apply rbind_iff in E. destruct E as (a & EX & E). apply rbind_iff in E. destruct E as (o & EO & E). injection E as <- <- <- <-. cbn [fst snd] in *. rewrite scan_units in ES.
    apply prepare_iff in EP. destruct (stack_of_up _ _ _ _ _ EP) as (UP & _ & EPS & HN). destruct (stacked_named _ _ UP) as [NM NA]. rewrite settings_eq in EO.
    destruct (PIMM_procedure _ _ _) as [st' r] eqn:ER. cbn [snd] in EO. subst r. apply pimm_iff in ER; [|exact NM|exact NA]. destruct ER as (A & B & _ & rows & F & O).
    cbn [pa_wait pa_simulation pa_int_step pa_duration pulse_settings pa_direction pa_excitation pa_Hvecs] in *.
    exists Hs, j, ps, a, st', rows, o. split; [exists th, ph; auto|]. split; [exact EP|]. split; [exact EX|]. split; [lra|]. split; [lra|]. rewrite (Rmult_comm 3). auto.
  - intros (Hs & j & ps & a & st' & rows & o & (th & ph & EA & ES) & EP & EX & A & B & F & O & -> & -> & ->). rewrite EA. cbn [rbind fst snd]. rewrite scan_units, ES. cbn [rbind fst snd].
    destruct (stack_of_up _ _ _ _ _ EP) as (UP & _ & EPS & HN). destruct (stacked_named _ _ UP) as [NM NA]. apply prepare_iff in EP. rewrite EP, EX. cbn [rbind fst snd]. rewrite settings_eq.
    assert (ER : PIMM_procedure rnd (pulse_settings c Hs ps a Hoe fmax) (j, 0%nat) = (st', Ok o)).
    { apply pimm_iff; [exact NM|exact NA|]. cbn [pa_wait pa_simulation pa_int_step pa_duration pulse_settings pa_direction pa_excitation pa_Hvecs pa_params].
      split; [lra|]. split; [lra|]. split; [rewrite EPS, map_length, seq_length; symmetry; apply UP|]. exists rows. rewrite (Rmult_comm _ 3). auto. }
    rewrite ER. reflexivity.
Qed.
Lemma scanned_iff c : (exists Hscan Hs, scanned c Hscan Hs) <-> In (cf_axis c) ["x"; "y"; "z"; "xy"; "xz"; "yz"]%string /\ (0 <= cf_Hsteps c)%Z.
Proof.
  unfold scanned. split.
  - intros (hs & Hs & th & ph & EA & ES). split; [apply angles_domain; eauto|]. unfold amplitude_scan, linspace in ES. destruct (Z.ltb_spec (cf_Hsteps c) 0) as [X|X]; [discriminate|exact X].
  - intros [A B]. apply angles_domain in A. destruct A as [[th ph] A].
    destruct (P_Domains.axis_scan_ok (cf_Hmin c * 1000) (cf_Hmax c * 1000) (cf_Hsteps c) th ph false B) as (hs & Hs & E & _). exists hs, Hs, th, ph. auto.
Qed.
Lemma scanned_length c Hscan Hs : scanned c Hscan Hs -> length Hs = Z.to_nat (cf_Hsteps c) /\ length Hscan = Z.to_nat (cf_Hsteps c).
Proof.
  intros (th & ph & _ & E). unfold amplitude_scan, linspace in E. destruct (cf_Hsteps c <? 0)%Z; [discriminate|]. cbn [rbind] in E. injection E as <- <-. rewrite !map_length, seq_length. auto.
Qed.
Lemma axis_iff a : (exists d, get_axis a = Ok d) <-> In a ["x"; "y"; "z"]%string.
Proof.
  unfold get_axis. cbn [In]. destruct (String.eqb_spec a "x") as [->|]; [split; eauto|]. destruct (String.eqb_spec a "y") as [->|]; [split; eauto|]. destruct (String.eqb_spec a "z") as [->|]; [split; eauto|].
  split; [intros [d X]; discriminate|]. intros [X|[X|[X|[]]]]; congruence.
Qed.
Lemma pimm_answers rng nsrc rnd s c Hoeaxis Hoe fmax : small_noise rnd ->
  (exists out, simulate_pimm rng nsrc rnd s c Hoeaxis Hoe fmax = Ok out) <->
  (0 < sf_N s)%nat /\ In (cf_axis c) ["x"; "y"; "z"; "xy"; "xz"; "yz"]%string /\ In Hoeaxis ["x"; "y"; "z"]%string /\ (0 <= cf_Hsteps c)%Z /\ 4 <= cf_time c /\ 0 < cf_step c /\
  ((0 < cf_Hsteps c)%Z -> stack_moment s <> 0 /\ (forall p, (p < sf_N s)%nat -> sf_Ms s p <> 0 /\ sf_thickness s p <> 0 /\ sf_length s p <> 0) /\
     exists n, step_counts (cf_time c / 1000000000) (cf_step c) (cf_step c) n 1 /\ 4 / 1000000000 <= INR (n - 1) * cf_step c).
Proof.
  intros SN. split.
  - intros [[[[Hscan freqs] spec] mag] E]. apply pimm_sim_iff in E. destruct E as (Hs & j & ps & a & st' & rows & o & SC & EP & EX & A & B & F & _).
    destruct (stack_of_up _ _ _ _ _ EP) as (UP & _ & -> & HN). destruct (proj1 (scanned_iff c) (ex_intro _ Hscan (ex_intro _ Hs SC))) as [S1 S2]. destruct (scanned_length _ _ _ SC) as [LH _].
    split; [exact HN|]. split; [exact S1|]. split; [apply axis_iff; eauto|]. split; [exact S2|]. split; [exact A|]. split; [exact B|]. intros HP. destruct Hs as [|H Hs]; [cbn in LH; lia|].
    exact (fields_need _ _ _ _ _ _ _ _ _ _ _ _ _ _ _ HN UP B F).
  - intros (HN & S1 & S3 & S2 & A & B & C). destruct (proj2 (scanned_iff c) (conj S1 S2)) as (Hscan & Hs & SC). apply axis_iff in S3. destruct S3 as [a EX].
    destruct (prepare_run rng nsrc s HN) as (ls & j & EP & _). apply prepare_iff in EP. destruct (stack_of_up _ _ _ _ _ EP) as (UP & _ & _ & _).
    assert (F : exists final rows, pimm_fields rnd (pulse_settings c Hs (map (strip s) (seq 0 (sf_N s))) a Hoe fmax) (along_axis a (field_pulse (Hoe * 1000) (3 * cf_step c))) Hs (j, 0%nat) final rows).
    { destruct Hs as [|H Hs]; [exists (j, 0%nat), []; constructor|]. destruct (scanned_length _ _ _ SC) as [LH _]. cbn in LH. destruct (C ltac:(lia)) as (SM & SL & n & HC & HL).
      exact (fields_exist rnd c (H :: Hs) s a Hoe fmax n SN HN SM SL B HC HL _ _ (H :: Hs) j 0%nat UP). }
    destruct F as (final & rows & F). destruct (stacked_named _ _ UP) as [NM NA].
    pose proof (fields_good _ _ _ _ (j, 0%nat) _ _ NM F) as G. cbn [fst] in G. assert (LN : length (ids j) = layerNo j) by (unfold ids; apply map_length). rewrite <- LN in G.
    eexists (_, _, _, _). apply pimm_sim_iff. exists Hs, j, (map (strip s) (seq 0 (sf_N s))), a, final, rows. eexists. split; [exact SC|]. split; [exact EP|]. split; [exact EX|]. split; [exact A|]. split; [exact B|].
    split; [exact F|]. split; [exact (collect_output _ _ _ G)|]. repeat split.
Qed.
Lemma arange_iff a b d fs : 0 < d -> np_arange a b d = Ok fs <-> up_to a b d fs.
Proof.
  intros HD. unfold np_arange, py_div. destruct (Req_EM_T d 0) as [X|_]; [lra|]. cbn [rbind]. set (n := Z.to_nat (math_ceil ((b - a) / d))).
  assert (Q : (b - a) / d * d = b - a) by (field; lra).
  assert (N : (forall i, (i < n)%nat <-> a + INR i * d < b)).
  { intros i. unfold n, math_ceil. set (q := (b - a) / d) in *. pose proof (base_Int_part (- q)) as [I1 I2]. set (z := Int_part (- q)) in *.
    assert (X : (i < Z.to_nat (- z))%nat <-> INR i < q).
    { rewrite INR_IZR_INZ. split.
      - intros Hi. assert (Z.of_nat i <= - z - 1)%Z by lia. apply IZR_le in H. rewrite minus_IZR, opp_IZR in H. lra.
      - intros Hi. assert (Y : IZR (Z.of_nat i) < IZR (- z)) by (rewrite opp_IZR; lra). apply lt_IZR in Y. lia. }
    rewrite X. split; intros Y; [nra|]. apply (Rmult_lt_reg_r d); lra. }
  split.
  - intros E. injection E as <-.
    + unfold up_to. rewrite map_length, seq_length. split.
      * intros i f Hf. rewrite nth_error_map in Hf. destruct (nth_error (seq 0 n) i) as [k|] eqn:E; [|discriminate]. cbn in Hf. injection Hf as <-.
        assert (Li : (i < n)%nat) by (rewrite <- (seq_length n 0); apply nth_error_Some; congruence). rewrite (nth_error_nth' _ 0%nat) in E by (rewrite seq_length; exact Li). rewrite seq_nth in E by exact Li. injection E as <-. cbn [Nat.add].
        split; [reflexivity|apply N, Li].
      * apply Rnot_lt_le. intros X. apply N in X. lia.
  - intros [U V]. assert (L : length fs = n).
    { destruct (Nat.lt_trichotomy (length fs) n) as [L|[L|L]]; [apply N in L; lra|exact L|]. exfalso. destruct (nth_error fs n) as [f|] eqn:E; [|apply nth_error_None in E; lia].
      destruct (U n f E) as [-> X]. apply N in X. lia. }
    f_equal. apply list_ext. intros i. rewrite nth_error_map. destruct (Nat.lt_ge_cases i n) as [Li|Li].
    + rewrite (nth_error_nth' (seq 0 n) 0%nat) by (rewrite seq_length; exact Li). rewrite seq_nth by exact Li. cbn [option_map Nat.add]. destruct (nth_error fs i) as [f|] eqn:E; [|apply nth_error_None in E; lia]. destruct (U i f E) as [-> _]. reflexivity.
    + rewrite (proj2 (nth_error_None (seq 0 n) i)) by (rewrite seq_length; exact Li). symmetry. apply nth_error_None. lia.
Qed.
Lemma vsd_sim_iff rng nsrc rnd design s c fmin fmax fstep Hoex kind Hoe Hscan fs spec : 0 < fstep -> (0 < cf_Hsteps c)%Z ->
  simulate_vsd rng nsrc rnd design s c fmin fmax fstep Hoex kind Hoe = Ok (Hscan, fs, spec) <-> diode_run rng nsrc rnd design s c fmin fmax fstep Hoex kind Hoe Hscan fs spec.
Proof.
  intros HF HP. unfold simulate_vsd, get_vsd_data, diode_run.
  assert (HF' : 0 < fstep * 1000000000) by lra.
  assert (SET : forall Hs ps a, VSD Hs fs (cf_step c) (Some ps) a Hoe (cf_time c / 10 ^ 9) (/ 10 ^ 6) kind calculate_resistance_series3 = diode_settings c Hs fs ps a Hoe kind).
  { intros. unfold diode_settings. replace (10 ^ 9) with 1000000000 by ring. replace (10 ^ 6) with 1000000 by ring. reflexivity. }
  assert (N9 : 10 ^ 9 = 1000000000) by ring. 
  assert (SZ : forall Hs raw, scanned c Hscan Hs -> length raw = length Hs /\ Forall (fun v => length v = length fs) raw -> sized raw (Z.to_nat (cf_Hsteps c)) (length fs)).
  { intros Hs raw SC [L1 L2]. destruct (scanned_length _ _ _ SC) as [L _]. split; [congruence|intros v; rewrite Forall_forall in L2; apply L2]. }
  split.
  - intros E. apply rbind_iff in E. destruct E as ([[sp fr] hs] & E & E'). apply rbind_iff in E'. destruct E' as (sp' & ED & E'). injection E' as <- <- <-.
    apply rbind_iff in E. destruct E as ([th ph] & EA & E). apply rbind_iff in E. destruct E as ([hs' Hs] & ES & E). apply rbind_iff in E. destruct E as ([j ps] & EP & E).
    apply rbind_iff in E. destruct E as (fs' & EF & E). apply rbind_iff in E. destruct E as (a & EX & E). apply rbind_iff in E. destruct E as (raw & ER & E). injection E as -> -> ->. cbn [fst snd] in *. rewrite scan_units in ES.
    apply prepare_iff in EP. destruct (stack_of_up _ _ _ _ _ EP) as (UP & _ & EPS & HN). destruct (stacked_named _ _ UP) as [NM NA]. rewrite SET in ER. rewrite !N9 in EF. apply arange_iff in EF; [|exact HF'].
    destruct (VSD_procedure _ _ _ _) as [st' r] eqn:EV. cbn [snd] in ER. subst r. apply vsd_iff in EV; [|exact series_sampled|exact NM|exact NA]. destruct EV as (A & _ & L).
    cbn [va_Rtype va_Hvecs given va_params diode_settings fst] in *.
    assert (SC : scanned c hs Hs) by (exists th, ph; auto). exists Hs, j, ps, a, st', sp. split; [exact SC|]. split; [exact EP|]. split; [exact EF|]. split; [exact EX|].
    split; [intros K; specialize (A K); replace (sf_N s) with (layerNo j) by apply UP; exact A|]. split; [exact L|]. apply detrend0; [|lia|exact ED]. apply (SZ Hs); [exact SC|exact (lines_shape _ _ _ _ _ _ _ _ L)].
  - intros (Hs & j & ps & a & st' & raw & SC & EP & EF & EX & A & L & D). pose proof (SZ Hs raw SC (lines_shape _ _ _ _ _ _ _ _ L)) as Z. destruct SC as (th & ph & EA & ES). rewrite EA. cbn [rbind fst snd]. rewrite scan_units, ES. cbn [rbind fst snd].
    destruct (stack_of_up _ _ _ _ _ EP) as (UP & _ & EPS & HN). destruct (stacked_named _ _ UP) as [NM NA]. apply prepare_iff in EP. rewrite EP. cbn [rbind fst snd]. rewrite !N9. apply arange_iff in EF; [|exact HF']. rewrite EF, EX. cbn [rbind]. rewrite <- N9, SET.
    assert (ER : VSD_procedure design rnd (diode_settings c Hs fs ps a Hoe kind) (j, 0%nat) = (st', Ok raw)).
    { apply vsd_iff; [exact series_sampled|exact NM|exact NA|]. cbn [va_Rtype va_Hvecs given va_params diode_settings fst]. destruct UP as (_ & UN & _).
      split; [intros K; rewrite UN; exact (A K)|]. split; [rewrite EPS, map_length, seq_length; symmetry; exact UN|exact L]. }
    rewrite ER. cbn [snd rbind]. assert (DD : detrend_axis raw 0 = Ok spec) by (apply (detrend0 spec Z); [lia|exact D]). rewrite DD. reflexivity.
Qed.

(** ** The stack keeps its material during a scan *)
Lemma fields_up rnd a oe s Hs st final rows : @pimm_fields (list R) rnd a oe Hs st final rows -> stacked_up s (fst st) -> stacked_up s (fst final).
Proof.
  intros F. induction F as [j pos|H Hs j pos j1 j2 N st row rows final P EX RES F IH]; intros UP; [exact UP|]. cbn [fst] in *. apply IH.
  pose proof (prepared_up _ _ _ _ _ _ _ _ UP P) as RD. eapply experiment_up; [exact RD|exact EX|exact (proj1 RES)].
Qed.
Lemma fields_rate rnd a oe rng nsrc s j ps Hs pos j' pos' rows H d k j1 p l t v b top Hoe m : stack_of rng nsrc s j ps -> @pimm_fields (list R) rnd a oe Hs (j, pos) (j', pos') rows ->
  prepared_for rnd H oe d k j' j1 -> nth_error (j_layers j1) p = Some l -> getCurrentAxialDrivers oe t = Ok Hoe ->
  rhs l t v b top m <-> sf_Ms s p <> 0 /\ sf_thickness s p <> 0 /\ m = stack_rate s p H Hoe v b top.
Proof.
  intros ST F P Hl HO. apply stack_of_up in ST. destruct ST as (UP & _). pose proof (fields_up _ _ _ _ _ _ _ _ F UP) as UP'. cbn [fst] in UP'.
  destruct (prepared_up _ _ _ _ _ _ _ _ UP' P) as (_ & _ & _ & _ & C). destruct (C p l Hl) as (M & E1 & E2). apply matter_rhs; [exact M|exact E1|rewrite E2; exact HO].
Qed.
