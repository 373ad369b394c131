(** The domain simulation: each domain is an independent macrospin. *)
From Verif Require Import P_Fit P_Geom P_PyUtils P_Resist.
From Verif Require Export P_PimmProps P_Cache.
From Verif Require Import S_Domains.
From Coq Require Import DecimalString DecimalNat Psatz.
Open Scope R_scope.
Open Scope st_scope.

(** ** Layers that are macrospins *)
Definition film : tensor := Ten (CV 0 0 0) (CV 0 0 0) (CV 0 0 1).
Definition spin (id : string) (k : cvec) (K Ms th al : R) (l : layer) : Prop :=
  l_id l = id /\ l_anis l = k /\ l_Ms l = Ms /\ l_thickness l = th /\ l_demag l = film /\
  l_dipoleBottom l = null_tensor /\ l_dipoleTop l = null_tensor /\ l_damping l = al /\ l_includeSTT l = false /\ l_includeSOT l = false /\
  quiet l /\ l_anisotropy l = steady_scalar K /\ l_IECBottom l = default_driver /\ l_IECTop l = default_driver /\
  l_QuadBottom l = default_driver /\ l_QuadTop l = default_driver /\ l_Oersted l = null_axial /\ l_Hdmi l = null_axial /\
  l_Hreserved l = null_axial /\ l_IDMIBottom l = null_axial /\ l_IDMITop l = null_axial.
Lemma spin_static id k K Ms th al l l' : static l l' -> spin id k K Ms th al l -> spin id k K Ms th al l'.
Proof. intros (m & c & rp & bf & ->) H. exact H. Qed.
Lemma spin_external id k K Ms th al l d : spin id k K Ms th al l -> spin id k K Ms th al (set_l_external d l).
Proof. intros H. exact H. Qed.
Lemma spin_field_eq k K Ms th (H v b top : cvec) :
  Sum [H; H_anis k K Ms v; Plus (H_iec 0 0 (Ms * th) v b) (H_iec 0 0 (Ms * th) v top); Plus (H_idmi Zero (Ms * th) b) (H_idmi Zero (Ms * th) top);
       Zero; Zero; Zero; Scal (-1) (H_tensor film Ms v); Scal (-1) (Plus (H_tensor null_tensor Ms b) (H_tensor null_tensor Ms top)); Zero] = spin_field k K Ms H v.
Proof.
  unfold spin_field, H_anis, H_iec, H_idmi, H_tensor, MatVec, film, null_tensor. unfold Rdiv. rewrite !Rmult_1_l. generalize (/ S_Layer.mu0) (/ (Ms * th)) (/ Ms). intros u w x. destruct H, v, b, top, k. apply vec_eq; cbn; ring.
Qed.
Lemma spin_rhs_iff id k K Ms th al l H t v b top d : spin id k K Ms th al l -> l_external l = steady H ->
  rhs l t v b top d <-> Ms <> 0 /\ th <> 0 /\ d = spin_rate k K Ms al H v.
Proof.
  intros (E1 & E2 & E3 & E4 & E5 & E6 & E7 & E8 & E9 & E10 & E11 & E12 & E13 & E14 & E15 & E16 & E17 & E18 & E19 & E20 & E21) EX. unfold rhs. split.
  - intros (i & HI & M & T & L). rewrite E3 in M. rewrite E4 in T. split; [exact M|]. split; [exact T|].
    destruct HI as (I1 & I2 & I3 & I4 & I5 & I6 & I7 & I8 & I9 & I10 & I11).
    rewrite EX in I1. rewrite E17 in I2. rewrite E18 in I3. rewrite E19 in I4. rewrite E12 in I5. rewrite E13 in I6. rewrite E14 in I7. rewrite E15 in I8. rewrite E16 in I9. rewrite E20 in I10. rewrite E21 in I11.
    destruct i as [ext oe dmi res Kv Jb Jt J2b J2t Db Dt]. cbn [fi_ext fi_oe fi_dmi fi_res fi_K fi_Jb fi_Jt fi_J2b fi_J2t fi_Db fi_Dt] in *.
    injection I1 as <-. injection I2 as <-. injection I3 as <-. injection I4 as <-. injection I5 as <-. injection I6 as <-. injection I7 as <-. injection I8 as <-. injection I9 as <-. injection I10 as <-. injection I11 as <-.
    inversion L as [_ _ Ed|I X|hdl hfl X1 X|I X1 X]; try congruence. subst d. rewrite E8. unfold spin_rate. f_equal.
    unfold H_eff, IEC_total, IDMI_total, dipole_total. cbn [fi_ext fi_oe fi_dmi fi_res fi_K fi_Jb fi_Jt fi_J2b fi_J2t fi_Db fi_Dt].
    rewrite E2, E3, E4, E5, E6, E7. rewrite <- (spin_field_eq k K Ms th H v b top). destruct H. reflexivity.
  - intros (M & T & ->). exists (FI H Zero Zero Zero K 0 0 0 0 Zero Zero). split.
    { unfold inputs_at. cbn [fi_ext fi_oe fi_dmi fi_res fi_K fi_Jb fi_Jt fi_J2b fi_J2t fi_Db fi_Dt].
      rewrite EX, E12, E13, E14, E15, E16, E17, E18, E19, E20, E21. destruct H. repeat split. }
    rewrite E3, E4. split; [exact M|]. split; [exact T|].
    replace (spin_rate k K Ms al H v) with (LLG_plain (l_damping l) v (H_eff l (FI H Zero Zero Zero K 0 0 0 0 Zero Zero) v b top (dipole_total l b top) Zero)); [apply llg_plain; assumption|].
    rewrite E8. unfold spin_rate. f_equal. unfold H_eff, IEC_total, IDMI_total, dipole_total. cbn [fi_ext fi_oe fi_dmi fi_res fi_K fi_Jb fi_Jt fi_J2b fi_J2t fi_Db fi_Dt].
    rewrite E2, E3, E4, E5, E6, E7. apply spin_field_eq.
Qed.
Lemma spin_runnable' id k K Ms th al l H : spin id k K Ms th al l -> l_external l = steady H -> Ms <> 0 -> th <> 0 -> runnable l.
Proof.
  intros S EX M T. split; [|split].
  - intros t m b top. eexists. apply (spin_rhs_iff id k K Ms th al l H t m b top _ S EX). auto.
  - apply S.
  - destruct S as (_ & _ & _ & _ & _ & _ & _ & _ & _ & _ & [Q _] & _). congruence.
Qed.
Lemma RK4_ext (F G : R -> cvec -> cvec -> Prop) t t' dt m m' : (forall s s' v d, F s v d -> G s' v d) -> RK4_scheme F t dt m m' -> RK4_scheme G t' dt m m'.
Proof. intros H (f1 & f2 & f3 & f4 & A & B & C & D & E). exists f1, f2, f3, f4. repeat split; try (eapply H; eassumption). exact E. Qed.
Lemma Normalised_unique v u u' : Normalised v u -> Normalised v u' -> u = u'.
Proof. intros [[A B]|[A B]] [[C D]|[C D]]; congruence. Qed.
Lemma RK4_unique (f : cvec -> cvec) t dt m a b : RK4_scheme (fun _ v d => d = f v) t dt m a -> RK4_scheme (fun _ v d => d = f v) t dt m b -> a = b.
Proof. intros (? & ? & ? & ? & -> & -> & -> & -> & A) (? & ? & ? & ? & -> & -> & -> & -> & B). eapply Normalised_unique; eassumption. Qed.
Lemma relaxes_unique k K Ms al dt H n m m' : relaxes k K Ms al dt H n m -> relaxes k K Ms al dt H n m' -> m 0%nat = m' 0%nat -> forall i, (i <= n)%nat -> m i = m' i.
Proof.
  intros A B E i. induction i as [|i IH]; intros Hi; [exact E|]. specialize (A i ltac:(lia)). specialize (B i ltac:(lia)). rewrite IH in A by lia.
  eapply RK4_unique; eassumption.
Qed.

(** ** One step and one run of a junction of macrospins *)
Lemma spins_step n t dt j j' p l l' : run_runner (runner_table n RK4) t dt j = (j', Ok tt) -> n = layerNo j ->
  nth_error (j_layers j) p = Some l -> nth_error (j_layers j') p = Some l' ->
  exists b top, RK4_scheme (fun s m d => rhs l s m b top d) t dt (l_mag l) (l_mag l') /\ exists c, l' = set_l_mag (l_mag l') (set_l_cache c l).
Proof.
  intros E -> H1 H2. unfold runner_table in E.
  assert (X : (layerNo j = 1%nat /\ run_runner RunSingle t dt j = (j', Ok tt)) \/ run_runner RunMulti t dt j = (j', Ok tt)) by (destruct (layerNo j) as [|[|]]; auto).
  clear E. destruct X as [[L E]|E].
  - apply single_sound in E. destruct E as (_ & _ & C). specialize (C p l l' H1 H2). destruct p as [|p]; [exists Zero, Zero; exact C|].
    exfalso. assert (S p < layerNo j)%nat by (unfold layerNo; apply nth_error_Some; congruence). lia.
  - apply multi_sound in E. destruct E as (_ & _ & C). specialize (C p l l' H1 H2). do 2 eexists. exact C.
Qed.

(** ** Names *)
Lemma py_str_inj a b : py_str a = py_str b -> a = b.
Proof.
  unfold py_str. intros E. assert (H : Some (Nat.to_uint a) = Some (Nat.to_uint b)) by (rewrite <- !NilEmpty.usu, E; reflexivity).
  injection H as H. rewrite <- (Unsigned.of_to a), <- (Unsigned.of_to b), H. reflexivity.
Qed.
Definition dname (p : nat) : string := ("domain_" ++ py_str p)%string.
Lemma sapp_inj (a x y : string) : (a ++ x = a ++ y)%string -> x = y.
Proof. induction a as [|c a IH]; cbn; [auto|]. intros E. injection E as E. auto. Qed.
Lemma dname_inj a b : dname a = dname b -> a = b.
Proof. intros E. apply sapp_inj in E. apply py_str_inj, E. Qed.

(** ** The state between two fields *)
Definition kspin (s : domain_form) (p : nat) : layer -> Prop :=
  spin (dname p) (easy_axis s p) (df_K s p * 1000) (df_Ms s) (df_thickness s / 10 ^ 9) (df_alpha s).
Definition spins (s : domain_form) (j : junction) : Prop :=
  j_mode j = MR_NONE /\ layerNo j = df_N s /\ forall p l, nth_error (j_layers j) p = Some l -> kspin s p l.
Definition mag_at (j : junction) (p : nat) : cvec := nth p (mags (j_layers j)) Zero.
Lemma spins_ids s j : spins s j -> ids j = map dname (seq 0 (df_N s)).
Proof.
  intros (_ & L & H). unfold ids. apply list_ext. intros p. rewrite !nth_error_map.
  destruct (nth_error (j_layers j) p) as [l|] eqn:E.
  - assert (p < df_N s)%nat by (rewrite <- L; apply nth_error_Some; congruence). rewrite (nth_error_nth' _ 0%nat) by (rewrite seq_length; assumption). rewrite seq_nth by assumption. cbn. f_equal. apply (H p l E).
  - apply nth_error_None in E. unfold layerNo in L. rewrite (proj2 (nth_error_None (seq 0 (df_N s)) p)) by (rewrite seq_length; lia). reflexivity.
Qed.
Lemma spins_named s j : spins s j -> named j.
Proof.
  intros H. split; [|split].
  - unfold tag_ok. destruct (j_layers j) as [|a [|b r]]; try exact I. intros X. destruct H as (Y & _). congruence.
  - intros X. destruct H as (Y & _). congruence.
  - rewrite (spins_ids s j H). apply FinFun.Injective_map_NoDup; [intros a b; apply dname_inj|apply seq_NoDup].
Qed.

(** ** One field *)
Definition set_field (H : cvec) (j : junction) : junction := set_j_layers (map (set_l_external (steady H)) (j_layers j)) (set_j_log [] 0 j).
Lemma loop_cons s H rest j j' rows : domain_loop s (H :: rest) j = (j', Ok rows) <->
  exists j2 row rows', j_layers j <> [] /\ runSimulation (df_time s / 10 ^ 9) (df_step s) (df_step s) false RK4 (set_field H j) = (j2, Ok tt) /\
    rmap (domain_mean (df_last s) (j_log j2)) (seq 0 (df_N s)) = Ok row /\ domain_loop s rest j2 = (j', Ok rows') /\ rows = row :: rows'.
Proof.
  cbn [domain_loop].
  assert (EX : axial_of_vec H = Ok (steady H)) by (destruct H; reflexivity).
  unfold bind at 1, clearLog, modify at 1. unfold bind at 1, lift at 1. rewrite EX. unfold bind at 1, setLayerExternalFieldDriver, setExternalFieldDriver.
  destruct (j_layers j) as [|l0 ls] eqn:EL.
  { destruct (all_setter_empty (set_l_external (steady H)) (set_j_log [] 0 j)) as [e E]; [exact EL|]. rewrite E. split; [discriminate|]. intros (j2 & row & rows' & X & _). contradiction. }
  rewrite all_setter by (cbn [j_layers set_j_log]; rewrite EL; discriminate). cbn [j_layers set_j_log].
  fold (set_field H j). unfold bind at 1.
  destruct (runSimulation (df_time s / 10 ^ 9) (df_step s) (df_step s) false RK4 (set_field H j)) as [j2 [[]|e]] eqn:ER.
  2:{ split; [discriminate|]. intros (j2' & row & rows' & _ & X & _). congruence. }
  unfold bind at 1, get, bind at 1, lift. destruct (rmap (domain_mean (df_last s) (j_log j2)) (seq 0 (df_N s))) as [row|e] eqn:EM.
  2:{ split; [discriminate|]. intros (j2' & row & rows' & _ & X & Y & _). assert (j2' = j2) by congruence. subst. congruence. }
  unfold bind at 1. destruct (domain_loop s rest j2) as [j3 [rows'|e]] eqn:ED; unfold ret.
  - split.
    + intros X. injection X as <- <-. exists j2, row, rows'. repeat split; auto. discriminate.
    + intros (j2' & row' & rows2 & _ & X & Y & Z & ->). assert (j2' = j2) by congruence. subst. congruence.
  - split; [discriminate|]. intros (j2' & row' & rows2 & _ & X & Y & Z & _). assert (j2' = j2) by congruence. subst. congruence.
Qed.
Lemma spins_field s H j : spins s j -> spins s (set_field H j) /\ (forall p l, nth_error (j_layers (set_field H j)) p = Some l -> l_external l = steady H) /\
  (forall p, mag_at (set_field H j) p = mag_at j p) /\ j_log (set_field H j) = [] /\ j_logLength (set_field H j) = 0%nat.
Proof.
  intros (A & B & C). split; [|split; [|split; [|split; reflexivity]]].
  - split; [exact A|]. split; [unfold layerNo, set_field; cbn; rewrite map_length; exact B|]. intros p l. unfold set_field. cbn [j_layers set_j_layers]. rewrite nth_error_map.
    destruct (nth_error (j_layers j) p) as [l0|] eqn:E; [|discriminate]. intros X. injection X as <-. apply spin_external, (C p l0 E).
  - intros p l. unfold set_field. cbn [j_layers set_j_layers]. rewrite nth_error_map. destruct (nth_error (j_layers j) p) as [l0|]; [|discriminate]. intros X. injection X as <-. reflexivity.
  - intros p. unfold mag_at, mags, set_field. cbn [j_layers set_j_layers]. rewrite map_map. reflexivity.
Qed.
Lemma Sum_map vs : Sum vs = CV (sum_list (map cx vs)) (sum_list (map cy vs)) (sum_list (map cz vs)).
Proof. induction vs as [|v vs IH]; [reflexivity|]. cbn [Sum fold_right map sum_list]. fold (Sum vs). rewrite IH. destruct v. reflexivity. Qed.
Lemma slice_map {A B} (f : A -> B) n xs : slice_last n (map f xs) = map f (slice_last n xs).
Proof. unfold slice_last. rewrite map_length. destruct (0 <? n)%Z; apply skipn_map. Qed.
Lemma mean_iff last p g xs v : log_get (colname (dname p) "mx") g = Some (map cx xs) -> log_get (colname (dname p) "my") g = Some (map cy xs) ->
  log_get (colname (dname p) "mz") g = Some (map cz xs) ->
  domain_mean last g p = Ok v <-> exists ys, tail_samples last xs ys /\ average ys v.
Proof.
  intros EX EY EZ. unfold domain_mean, dict_at. fold (dname p). change (dname p ++ "_mx")%string with (colname (dname p) "mx").
  change (dname p ++ "_my")%string with (colname (dname p) "my"). change (dname p ++ "_mz")%string with (colname (dname p) "mz").
  rewrite EX, EY, EZ. cbn [rbind]. rewrite !slice_map. unfold np_mean. rewrite !map_length.
  set (ys := slice_last last xs).
  assert (Q : (exists ys0, tail_samples last xs ys0 /\ average ys0 v) <-> average ys v).
  { split; [intros (z & T & A); apply tail_iff in T; subst z; exact A|]. intros A. exists ys. split; [apply tail_iff; reflexivity|exact A]. }
  rewrite Q. unfold average. rewrite Sum_map. unfold fdiv. destruct (Req_EM_T (INR (length ys)) 0) as [E|E].
  - cbn [rbind]. split; [discriminate|]. intros [N _]. exfalso. apply N. destruct ys; [reflexivity|]. cbn [length] in E. rewrite S_INR in E. pose proof (pos_INR (length ys)). lra.
  - cbn [rbind]. split.
    + intros X. injection X as <-. split; [intros ->; apply E; reflexivity|]. apply vec_eq; cbn; field; exact E.
    + intros [_ X]. f_equal. destruct v as [x y z]. unfold Scal in X. cbn in X. injection X as X Y Z. apply vec_eq; cbn; [rewrite <- X|rewrite <- Y|rewrite <- Z]; field; exact E.
Qed.
Definition one_field (s : domain_form) (n : nat) (H : cvec) (j j2 : junction) (row : list cvec) : Prop :=
  forall p, (p < df_N s)%nat -> exists m ys, relaxes (easy_axis s p) (df_K s p * 1000) (df_Ms s) (df_alpha s) (df_step s) H n m /\ m 0%nat = mag_at j p /\
    mag_at j2 p = m n /\ tail_samples (df_last s) (map m (seq 1 n)) ys /\ average ys (nth p row Zero).
Lemma field_run s H j j2 : spins s j -> (0 < df_N s)%nat -> runSimulation (df_time s / 10 ^ 9) (df_step s) (df_step s) false RK4 (set_field H j) = (j2, Ok tt) ->
  exists n, step_counts (df_time s / 10 ^ 9) (df_step s) (df_step s) n 1 /\ spins s j2 /\ ((0 < n)%nat -> df_Ms s <> 0 /\ df_thickness s <> 0) /\
    (n = 0%nat -> j_log j2 = []) /\
    exists m : nat -> nat -> cvec, forall p, (p < df_N s)%nat -> relaxes (easy_axis s p) (df_K s p * 1000) (df_Ms s) (df_alpha s) (df_step s) H n (m p) /\
      m p 0%nat = mag_at j p /\ mag_at j2 p = m p n /\
      ((0 < n)%nat -> forall v, domain_mean (df_last s) (j_log j2) p = Ok v <-> exists ys, tail_samples (df_last s) (map (m p) (seq 1 n)) ys /\ average ys v).
Proof.
  intros HS HN E. destruct (spins_field s H j HS) as (F1 & F2 & F3 & F4 & F5).
  destruct (fresh_log _ _ _ _ (spins_named _ _ F1) F4 F5 E) as (n & st & (EX1 & HC & r & used & SEL & TR & EL) & SH & SW & Z0 & COLS & _).
  assert (QU : forall l, In l (j_layers (set_field H j)) -> quiet l).
  { intros l Hl. apply In_nth_error in Hl. destruct Hl as [p Hp]. destruct F1 as (_ & _ & F1). apply (F1 p l Hp). }
  assert (ER : r = runner_table (layerNo (set_field H j)) RK4).
  { destruct SEL as (_ & _ & [_ T] & ->). rewrite T; [reflexivity|]. intros (l & Hl & [X|X]); destruct (QU l Hl); congruence. }
  assert (E0 : j_layers (st 0%nat) = j_layers (set_field H j)).
  { destruct SEL as (_ & -> & _). cbn [j_layers set_j_layers]. rewrite <- (map_id (j_layers (set_field H j))) at 2. apply map_ext_in. intros l Hl. unfold prepared. destruct (QU l Hl) as [_ Q].
    destruct (Req_EM_T (l_nScale l) 0); [reflexivity|contradiction]. }
  assert (SK : forall i, (i <= n)%nat -> stepwise (fun _ l l' => static l l') (st 0%nat) (st i)) by (intros i Hi; exact (traj_static _ _ _ _ _ TR Hi)).
  assert (LK : forall i, (i <= n)%nat -> length (j_layers (st i)) = df_N s).
  { intros i Hi. destruct (SK i Hi) as (_ & L & _). rewrite L, E0. apply F1. }
  assert (AT : forall i p, (i <= n)%nat -> (p < df_N s)%nat -> exists l, nth_error (j_layers (st i)) p = Some l /\ kspin s p l /\ l_external l = steady H).
  { intros i p Hi Hp. destruct (nth_error (j_layers (st i)) p) as [l|] eqn:El; [|apply nth_error_None in El; rewrite LK in El by exact Hi; lia].
    exists l. split; [reflexivity|]. destruct (SK i Hi) as (_ & L & C). destruct (nth_error (j_layers (st 0%nat)) p) as [l0|] eqn:E1; [|apply nth_error_None in E1; rewrite LK in E1 by lia; lia].
    specialize (C p l0 l E1 El). assert (E2 := E1). rewrite E0 in E2. destruct F1 as (_ & _ & F1). specialize (F1 p l0 E2). specialize (F2 p l0 E2). split; [eapply spin_static; eassumption|].
    destruct C as (m & c & rp & bf & ->). exact F2. }
  assert (MA : forall i p l, nth_error (j_layers (st i)) p = Some l -> mag_at (st i) p = l_mag l).
  { intros i p l Hl. unfold mag_at, mags. apply nth_error_nth. rewrite nth_error_map, Hl. reflexivity. }
  assert (STEP : forall i p, (i < n)%nat -> (p < df_N s)%nat -> df_Ms s <> 0 /\ df_thickness s / 10 ^ 9 <> 0 /\
            RK4_scheme (fun _ v d => d = spin_rate (easy_axis s p) (df_K s p * 1000) (df_Ms s) (df_alpha s) H v) 0 (df_step s) (mag_at (st i) p) (mag_at (st (S i)) p)).
  { intros i p Hi Hp. specialize (TR i Hi). rewrite ER in TR. destruct (AT i p ltac:(lia) Hp) as (l & Hl & HK & HX). destruct (AT (S i) p ltac:(lia) Hp) as (l' & Hl' & _).
    assert (LN : layerNo (set_field H j) = layerNo (st i)) by (unfold layerNo; rewrite (LK i) by lia; apply F1).
    rewrite LN in TR. destruct (spins_step _ _ _ _ _ p l l' TR eq_refl Hl Hl') as (b & top & SC & _). rewrite (MA _ _ _ Hl), (MA _ _ _ Hl').
    assert (W : forall t v d, rhs l t v b top d <-> df_Ms s <> 0 /\ df_thickness s / 10 ^ 9 <> 0 /\ d = spin_rate (easy_axis s p) (df_K s p * 1000) (df_Ms s) (df_alpha s) H v)
      by (intros t v d; apply (spin_rhs_iff _ _ _ _ _ _ _ _ _ _ _ _ _ HK HX)).
    assert (SC' := SC). destruct SC' as (f1 & _ & _ & _ & G & _). apply W in G. destruct G as (G1 & G2 & _). split; [exact G1|]. split; [exact G2|].
    apply (RK4_ext (fun q m d => rhs l q m b top d) _ (INR i * df_step s)); [|exact SC]. intros a a' v d X. apply W in X. apply X. }
  assert (EJ : forall p, mag_at j2 p = mag_at (st n) p) by (intros p; unfold mag_at; rewrite EL; reflexivity).
  exists n. split; [exact HC|]. split; [|split; [|split; [exact Z0|]]].
  - destruct SH as (A & B & C). destruct F1 as (F1a & F1b & F1c). split; [congruence|]. split; [unfold layerNo; rewrite EL; apply LK; lia|].
    intros p l Hl. rewrite EL in Hl. assert (p < df_N s)%nat by (rewrite <- (LK n (le_n n)); apply nth_error_Some; congruence). destruct (AT n p (le_n n) H0) as (l' & Hl' & HK & _). congruence.
  - intros Hn. destruct (STEP 0%nat 0%nat Hn HN) as (A & B & _). split; [exact A|]. intros X. apply B. rewrite X. unfold Rdiv. ring.
  - exists (fun p i => mag_at (st i) p). intros p Hp. split; [|split; [|split; [apply EJ|]]].
    + intros i Hi. apply STEP; assumption.
    + rewrite <- F3. unfold mag_at. rewrite E0. reflexivity.
    + intros Hn v. destruct (COLS Hn) as [_ COL]. destruct (nth_error (j_layers (set_field H j)) p) as [l|] eqn:El.
      2:{ exfalso. apply nth_error_None in El. destruct F1 as (_ & F1b & _). unfold layerNo in F1b. lia. }
      destruct (COL p l El) as (CX & CY & CZ). assert (ID : l_id l = dname p) by (destruct F1 as (_ & _ & F1c); apply (F1c p l El)). rewrite ID in *.
      assert (SM : samples st n p = map (fun i => mag_at (st i) p) (seq 1 n)).
      { unfold samples. rewrite <- seq_shift, map_map. reflexivity. }
      rewrite SM in CX, CY, CZ. apply (mean_iff _ _ _ _ _ CX CY CZ).
Qed.

(** ** All fields *)
Lemma loop_sound s : (0 < df_N s)%nat -> forall Hs j j' rows, spins s j -> domain_loop s Hs j = (j', Ok rows) ->
  length rows = length Hs /\ (forall row, In row rows -> length row = df_N s) /\ (Hs <> [] -> df_Ms s <> 0 /\ df_thickness s <> 0) /\
  exists n, (Hs <> [] -> step_counts (df_time s / 10 ^ 9) (df_step s) (df_step s) n 1) /\
    forall p, (p < df_N s)%nat ->
      hysteresis (easy_axis s p) (df_K s p * 1000) (df_Ms s) (df_alpha s) (df_step s) n (df_last s) (mag_at j p) Hs (map (fun row => nth p row vnull) rows).
Proof.
  intros HN. induction Hs as [|H Hs IH]; intros j j' rows HS E.
  - injection E as <- <-. split; [reflexivity|]. split; [intros row []|]. split; [congruence|]. exists 0%nat. split; [congruence|]. intros p Hp. constructor.
  - apply loop_cons in E. destruct E as (j2 & row & rows' & _ & ER & EM & EL & ->).
    destruct (field_run s H j j2 HS HN ER) as (n & HC & HS2 & HM & H0 & m & HP).
    assert (LR := EM). apply rmap_seq with (d := vnull) in LR. destruct LR as [LR GR].
    assert (Hn : (0 < n)%nat).
    { destruct n as [|n]; [|lia]. exfalso. specialize (GR 0%nat HN). rewrite (H0 eq_refl) in GR. discriminate. }
    destruct (IH j2 j' rows' HS2 EL) as (L & A & _ & n' & HC' & HH).
    split; [cbn; lia|]. split; [intros r [<-|Hr]; [exact LR|apply A, Hr]|]. split; [intros _; apply HM, Hn|].
    exists n. split; [intros _; exact HC|]. intros p Hp. cbn [map].
    destruct (HP p Hp) as (R1 & R2 & R3 & R4). specialize (GR p Hp). cbn [Nat.add] in GR. apply (R4 Hn) in GR. destruct GR as (ys & T & AV).
    apply hysteresis_next with (m := m p) (ys := ys); try assumption. rewrite <- R3. specialize (HH p Hp).
    destruct Hs as [|H' Hs]; [destruct rows' as [|r rows']; [constructor|cbn in L; discriminate]|].
    destruct (step_counts_unique _ _ _ _ _ _ _ (HC' ltac:(discriminate)) HC) as [-> _]. exact HH.
Qed.
Definition enough (s : domain_form) (n : nat) : Prop := slice_last (df_last s) (seq 1 n) <> [].
Lemma loop_exists s n : (0 < df_N s)%nat -> 0 <= df_step s -> df_Ms s <> 0 -> df_thickness s <> 0 -> step_counts (df_time s / 10 ^ 9) (df_step s) (df_step s) n 1 -> enough s n ->
  forall Hs j, spins s j -> exists j' rows, domain_loop s Hs j = (j', Ok rows).
Proof.
  intros HN HD HM HT HC EN. assert (HT' : df_thickness s / 10 ^ 9 <> 0) by (intros X; apply HT; apply (Rmult_eq_reg_r (/ 10 ^ 9)); [rewrite Rmult_0_l; exact X|apply Rinv_neq_0_compat; lra]).
  induction Hs as [|H Hs IH]; intros j HS; [exists j, []; reflexivity|].
  destruct (spins_field s H j HS) as (F1 & F2 & F3 & F4 & F5).
  assert (NE : j_layers (set_field H j) <> []) by (destruct F1 as (_ & L & _); unfold layerNo in L; intros X; rewrite X in L; cbn in L; lia).
  destruct (run_exists (df_time s / 10 ^ 9) (df_step s) (df_step s) false RK4 (set_field H j) n 1 HD NE) as [j2 ER].
  { destruct F1 as (M & _). congruence. } { exact HC. } { lia. }
  { intros l Hl. apply In_nth_error in Hl. destruct Hl as [p Hp]. destruct F1 as (_ & _ & F1). eapply spin_runnable'; [apply (F1 p l Hp)|apply (F2 p l Hp)|exact HM|exact HT']. }
  destruct (field_run s H j j2 HS HN ER) as (n' & HC' & HS2 & _ & _ & m & HP). destruct (step_counts_unique _ _ _ _ _ _ _ HC' HC) as [<- _].
  assert (Hn : (0 < n)%nat) by (destruct n; [exfalso; apply EN; unfold slice_last; destruct (0 <? df_last s)%Z; apply skipn_nil|lia]).
  assert (EM : exists row, rmap (domain_mean (df_last s) (j_log j2)) (seq 0 (df_N s)) = Ok row).
  { set (avg := fun p => let ys := slice_last (df_last s) (map (m p) (seq 1 n)) in Scal (/ INR (length ys)) (Sum ys)).
    exists (map avg (seq 0 (df_N s))). apply rmap_seq with (d := vnull). split; [rewrite map_length, seq_length; reflexivity|]. intros p Hp. cbn [Nat.add].
    destruct (HP p Hp) as (_ & _ & _ & R4). apply (R4 Hn). exists (slice_last (df_last s) (map (m p) (seq 1 n))). split; [apply tail_iff; reflexivity|].
    rewrite (nth_indep _ vnull (avg 0%nat)) by (rewrite map_length, seq_length; exact Hp). rewrite map_nth, seq_nth by exact Hp. cbn [Nat.add]. unfold avg. cbv zeta. rewrite slice_map.
    set (zs := slice_last (df_last s) (seq 1 n)) in *. unfold enough in EN. fold zs in EN. split; [destruct zs; [congruence|discriminate]|].
    assert (INR (length (map (m p) zs)) <> 0) by (rewrite map_length; destruct zs; [congruence|]; cbn [length]; rewrite S_INR; pose proof (pos_INR (length zs)); lra).
    destruct (Sum (map (m p) zs)) as [a b c]. apply vec_eq; cbn; field; assumption. }
  destruct EM as [row EM]. destruct (IH j2 HS2) as (j3 & rows & EL). exists j3, (row :: rows). apply loop_cons. exists j2, row, rows. repeat split; try assumption.
  destruct HS as (_ & L & _). unfold layerNo in L. intros X. rewrite X in L. cbn in L. lia.
Qed.
Lemma average_unique ys a b : average ys a -> average ys b -> a = b.
Proof.
  intros [N A] [_ B]. rewrite <- A in B. assert (INR (length ys) <> 0) by (destruct ys; [congruence|]; cbn [length]; rewrite S_INR; pose proof (pos_INR (length ys)); lra).
  destruct a as [a1 a2 a3], b as [b1 b2 b3]. unfold Scal in B. cbn in B. injection B as B1 B2 B3. f_equal; symmetry; eapply Rmult_eq_reg_l; eauto.
Qed.
Lemma hysteresis_unique k K Ms al dt n last start Hs c : hysteresis k K Ms al dt n last start Hs c -> forall c', hysteresis k K Ms al dt n last start Hs c' -> c = c'.
Proof.
  induction 1 as [start|start H Hs m ys a rest R S T A _ IH]; intros c' X; inversion X as [|st' H' Hs' m' ys' a' rest' R' S' T' A' X']; subst; [reflexivity|].
  assert (M : forall i, (i <= n)%nat -> m' i = m i) by (apply (relaxes_unique _ _ _ _ _ _ _ _ _ R' R); assumption).
  assert (EY : ys' = ys).
  { apply tail_iff in T. apply tail_iff in T'. subst. f_equal. apply map_ext_in. intros i Hi. apply in_seq in Hi. apply M. lia. }
  subst ys'. f_equal; [eapply average_unique; eassumption|]. apply IH. rewrite <- (M n) by lia. exact X'.
Qed.
Lemma hysteresis_enough s k K Ms al dt n start H Hs c : hysteresis k K Ms al dt n (df_last s) start (H :: Hs) c -> enough s n.
Proof.
  intros X. inversion X as [|st' H' Hs' m' ys' a' rest' R' S' T' A' X']; subst. apply tail_iff in T'. rewrite slice_map in T'. unfold enough. intros E. rewrite E in T'. destruct A' as [A' _]. apply A', T'.
Qed.

(** ** The form *)
Lemma easy_axis_eq s i : angle2vector (df_theta s i) (df_phi s i) 1 = easy_axis s i.
Proof. apply angle2vector_point; unfold degrees; field. Qed.
Lemma easy_axis_unit s i : Norm (easy_axis s i) = 1.
Proof.
  unfold easy_axis, point, Norm, Norm2, Dot. cbn. set (t := df_theta s i * PI / 180). set (p := df_phi s i * PI / 180).
  pose proof (sin2_cos2 t) as A. pose proof (sin2_cos2 p) as B. unfold Rsqr in *.
  match goal with |- sqrt ?x = 1 => replace x with 1 end; [apply sqrt_1|].
  transitivity (sin t * sin t * (sin p * sin p + cos p * cos p) + cos t * cos t); [rewrite B, Rmult_1_r, A; reflexivity|ring].
Qed.
Lemma create_ok rng nsrc s i : exists l, create_single_domain rng nsrc s i = Ok l /\ kspin s i l /\ l_mag l = easy_axis s i.
Proof.
  unfold create_single_domain. cbv zeta. rewrite easy_axis_eq. unfold Layer_plain, mkLayer. rewrite vlength_Norm, easy_axis_unit.
  destruct (Req_EM_T 1 0) as [X|_]; [lra|]. cbn [rbind]. eexists. split; [reflexivity|]. split; [|reflexivity].
  repeat split. cbn [l_anisotropy set_l_anisotropy]. unfold steady_scalar. replace (df_K s i * 1000) with (df_K s i * 10 ^ 3) by ring. reflexivity.
Qed.
Lemma F2_at {A B} (P : A -> B -> Prop) xs ys : Forall2 P xs ys -> forall p x y, nth_error xs p = Some x -> nth_error ys p = Some y -> P x y.
Proof. induction 1 as [|a b xs ys H F IH]; intros [|p] x y X Y; cbn in *; try discriminate; [congruence|eapply IH; eassumption]. Qed.
Lemma start_ok rng nsrc s : (0 < df_N s)%nat -> exists ls j, rmap (create_single_domain rng nsrc s) (seq 0 (df_N s)) = Ok ls /\ Junction_plain ls = Ok j /\ spins s j /\
  forall p, (p < df_N s)%nat -> mag_at j p = easy_axis s p.
Proof.
  intros HN. destruct (rmap (create_single_domain rng nsrc s) (seq 0 (df_N s))) as [ls|e] eqn:E.
  - exists ls, (JN MR_NONE ls 0 0 [] [] [] [] [] [] [] [] 0 "R"). split; [reflexivity|]. apply rmap_iff in E.
    assert (L : length ls = df_N s) by (rewrite <- (seq_length (df_N s) 0); clear -E; induction E; cbn; congruence).
    assert (G : forall p l, nth_error ls p = Some l -> kspin s p l /\ l_mag l = easy_axis s p).
    { intros p l Hl. assert (Hp : (p < df_N s)%nat) by (rewrite <- L; apply nth_error_Some; congruence).
      assert (X : nth_error (seq 0 (df_N s)) p = Some p) by (rewrite (nth_error_nth' _ 0%nat) by (rewrite seq_length; exact Hp); rewrite seq_nth by exact Hp; reflexivity).
      destruct (create_ok rng nsrc s p) as (l' & Y & Z). assert (W : create_single_domain rng nsrc s p = Ok l).
      { exact (F2_at _ _ _ E p p l X Hl). }
      rewrite W in Y. injection Y as <-. exact Z. }
    split; [destruct ls; [cbn in L; lia|reflexivity]|]. split.
    + split; [reflexivity|]. split; [exact L|]. intros p l Hl. apply (G p l Hl).
    + intros p Hp. unfold mag_at, mags. cbn [j_layers]. destruct (nth_error ls p) as [l|] eqn:Hl; [|apply nth_error_None in Hl; lia].
      apply nth_error_nth. rewrite nth_error_map, Hl. cbn. f_equal. apply (G p l Hl).
  - exfalso. revert E. generalize (seq 0 (df_N s)). induction l as [|i l IH]; cbn [rmap]; [discriminate|]. destruct (create_ok rng nsrc s i) as (x & X & _). rewrite X. cbn [rbind].
    destruct (rmap (create_single_domain rng nsrc s) l) as [ys|e'] eqn:Y; [discriminate|]. cbn. intros Z. apply IH. congruence.
Qed.
Definition wsum (s : domain_form) : R := sum_list (map (fun i => df_area s i / 10 ^ 18) (seq 0 (df_N s))).
Lemma wsum_total s : total_area s = wsum s * 10 ^ 18.
Proof.
  unfold total_area, wsum, sum_list. induction (seq 0 (df_N s)) as [|i l IH]; cbn [fold_right map]; [ring|]. rewrite IH. field.
Qed.
Lemma weights_iff s ws : (0 < df_N s)%nat -> rmap (fun w => py_div w (wsum s)) (map (fun i => df_area s i / 10 ^ 18) (seq 0 (df_N s))) = Ok ws <->
  total_area s <> 0 /\ ws = map (fun i => df_area s i / total_area s) (seq 0 (df_N s)).
Proof.
  intros HN. rewrite rmap_iff. unfold py_div. rewrite wsum_total. destruct (Req_EM_T (wsum s) 0) as [E|E].
  - rewrite E. split; [|intros [X _]; exfalso; apply X; ring]. destruct (df_N s); [lia|]. cbn [seq map]. intros F. inversion F. discriminate.
  - assert (W : wsum s * 10 ^ 18 <> 0) by (apply Rmult_integral_contrapositive_currified; [exact E|lra]). split.
    + intros F. split; [exact W|]. revert ws F. induction (seq 0 (df_N s)) as [|i l IH]; intros ws F; inversion F; subst; [reflexivity|]. cbn [map]. f_equal; [|apply IH; assumption].
      match goal with K : Ok _ = Ok _ |- _ => injection K as <- end. field. exact E.
    + intros [_ ->]. induction (seq 0 (df_N s)) as [|i l IH]; cbn [map]; constructor; [|exact IH]. f_equal. field. exact E.
Qed.
Lemma mix_fold : forall l acc, fold_left (fun acc p => vadd acc (vscale (fst p) (snd p))) l acc = Plus acc (Sum (map (fun p : cvec * R => Scal (snd p) (fst p)) l)).
Proof.
  induction l as [|[v w] l IH]; intros acc; cbn [fold_left map Sum fold_right fst snd].
  - destruct acc. apply vec_eq; cbn; ring.
  - rewrite IH. fold (Sum (map (fun p : cvec * R => Scal (snd p) (fst p)) l)). destruct (Sum _), acc, v. apply vec_eq; cbn; ring.
Qed.
Lemma combine_seq {A} (row : list A) (g : nat -> R) d N : length row = N -> combine row (map g (seq 0 N)) = map (fun i => (nth i row d, g i)) (seq 0 N).
Proof.
  intros <-. assert (X : forall a, combine row (map g (seq a (length row))) = map (fun i => (nth (i - a) row d, g i)) (seq a (length row))).
  { induction row as [|x row IH]; intros a; [reflexivity|]. cbn [length seq map combine]. rewrite Nat.sub_diag. cbn [nth]. f_equal. rewrite IH. apply map_ext_in. intros i Hi. apply in_seq in Hi.
    replace (i - a)%nat with (S (i - S a)) by lia. reflexivity. }
  rewrite X. apply map_ext. intros i. rewrite Nat.sub_0_r. reflexivity.
Qed.
Lemma mapi_seq {A B} (f : nat -> A -> B) (h : nat -> A) N : forall a, mapi f a (map h (seq a N)) = map (fun i => f i (h i)) (seq a N).
Proof. induction N as [|N IH]; intros a; cbn; [reflexivity|]. rewrite IH. reflexivity. Qed.
Lemma Scal_Sum c vs : Scal c (Sum vs) = Sum (map (Scal c) vs).
Proof.
  induction vs as [|v vs IH]; cbn [Sum fold_right map]; [apply vec_eq; cbn; ring|]. fold (Sum vs). fold (Sum (map (Scal c) vs)). rewrite <- IH. destruct v, (Sum vs). apply vec_eq; cbn; ring.
Qed.
Lemma mix_eq s row : total_area s <> 0 -> length row = df_N s ->
  Scal (total_area s) (mix (map (fun i => df_area s i / total_area s) (seq 0 (df_N s))) row) = Sum (map (fun i => Scal (df_area s i) (nth i row vnull)) (seq 0 (df_N s))).
Proof.
  intros W L. unfold mix. rewrite mix_fold, (combine_seq row _ vnull _ L), map_map. assert (Z : forall x, Plus vnull x = x) by (intros []; apply vec_eq; cbn; ring). rewrite Z.
  rewrite Scal_Sum, map_map. f_equal. apply map_ext. intros i. cbn [fst snd]. destruct (nth i row vnull). apply vec_eq; cbn; field; exact W.
Qed.

(** ** Everything together *)
Lemma nth_map_seq {A} (f : nat -> A) N i x : nth_error (map f (seq 0 N)) i = Some x <-> (i < N)%nat /\ x = f i.
Proof.
  rewrite nth_error_map. destruct (Nat.lt_ge_cases i N) as [H|H].
  - rewrite (nth_error_nth' _ 0%nat) by (rewrite seq_length; exact H). rewrite seq_nth by exact H. cbn. split; [intros E; injection E as <-; auto|intros [_ ->]; reflexivity].
  - rewrite (proj2 (nth_error_None (seq 0 N) i)) by (rewrite seq_length; exact H). cbn. split; [discriminate|lia].
Qed.
Lemma domains_sound rng nsrc s Hscan mixed curves : simulate_domains rng nsrc s = Ok (Hscan, mixed, curves) -> domains_spec s Hscan mixed curves.
Proof.
  unfold simulate_domains. destruct (get_axis_angles (df_axis s)) as [[th ph]|e] eqn:EA; [|discriminate]. cbn [rbind fst snd].
  destruct (amplitude_scan _ _ _ _ _ _) as [[hs Hs]|e] eqn:ES; [|discriminate]. cbn [rbind fst snd].
  destruct (Nat.eq_dec (df_N s) 0) as [N0|N0]; [rewrite N0; discriminate|]. assert (HN : (0 < df_N s)%nat) by lia.
  destruct (start_ok rng nsrc s HN) as (ls & j & E1 & E2 & HS & HM). rewrite E1. cbn [rbind]. rewrite E2. cbn [rbind]. fold (wsum s).
  destruct (rmap _ (map _ _)) as [ws|e] eqn:EW; [|discriminate]. cbn [rbind]. apply (weights_iff s ws HN) in EW. destruct EW as [W ->].
  destruct (domain_loop s Hs j) as [j' [rows|e]] eqn:EL; [|discriminate]. cbn [rbind snd]. intros X. injection X as <- <- <-.
  destruct (loop_sound s HN Hs j j' rows HS EL) as (L & LR & HP & n & HC & HH).
  split; [exact HN|]. split; [exact W|]. exists th, ph, Hs. split; [exact EA|].
  replace (df_Hmin s * 1000) with (df_Hmin s * 10 ^ 3) by ring. replace (df_Hmax s * 1000) with (df_Hmax s * 10 ^ 3) by ring. split; [exact ES|].
  split; [rewrite map_length, seq_length; reflexivity|]. split; [|split; [rewrite map_length; exact L|]].
  - intros i curve Hi. apply nth_map_seq in Hi. destruct Hi as [Hi ->]. split; [exact HP|]. exists n. split; [exact HC|]. rewrite <- (HM i Hi) at 2. apply HH, Hi.
  - intros f v Hf. rewrite nth_error_map in Hf. destruct (nth_error rows f) as [row|] eqn:ER; [|discriminate]. injection Hf as <-.
    rewrite (mix_eq s row W (LR row (nth_error_In _ _ ER))). rewrite mapi_seq. f_equal. apply map_ext. intros i. f_equal.
    rewrite (nth_error_nth (map _ rows) f Zero (map_nth_error (fun row => nth i row vnull) f rows ER)). reflexivity.
Qed.
Lemma domains_exists rng nsrc s Hscan mixed curves : 0 <= df_step s -> domains_spec s Hscan mixed curves -> exists out, simulate_domains rng nsrc s = Ok out.
Proof.
  intros HD (HN & W & th & ph & Hs & EA & ES & LC & HCU & _). unfold simulate_domains. rewrite EA. cbn [rbind fst snd].
  replace (df_Hmin s * 1000) with (df_Hmin s * 10 ^ 3) in ES by ring. replace (df_Hmax s * 1000) with (df_Hmax s * 10 ^ 3) in ES by ring. rewrite ES. cbn [rbind fst snd].
  destruct (start_ok rng nsrc s HN) as (ls & j & E1 & E2 & HS & HM). rewrite E1. cbn [rbind]. rewrite E2. cbn [rbind]. fold (wsum s).
  rewrite (proj2 (weights_iff s _ HN) (conj W eq_refl)). cbn [rbind].
  assert (X : exists j' rows, domain_loop s Hs j = (j', Ok rows)).
  { destruct Hs as [|H Hs]; [exists j, []; reflexivity|]. destruct curves as [|c curves]; [cbn in LC; lia|].
    destruct (HCU 0%nat c eq_refl) as (HP & n & HC & HH). destruct (HP ltac:(discriminate)) as [P1 P2].
    apply (loop_exists s n HN HD P1 P2 (HC ltac:(discriminate)) (hysteresis_enough s _ _ _ _ _ _ _ _ _ _ HH)). exact HS. }
  destruct X as (j' & rows & X). rewrite X. cbn [rbind snd]. eauto.
Qed.
Lemma hysteresis_length k K Ms al dt n last start Hs c : hysteresis k K Ms al dt n last start Hs c -> length c = length Hs.
Proof. induction 1; cbn; congruence. Qed.
Lemma curve_unique s i Hs a b : domain_curve s i Hs a -> domain_curve s i Hs b -> a = b.
Proof.
  intros (_ & n & C & A) (_ & n' & C' & B). destruct Hs as [|H Hs]; [inversion A; inversion B; reflexivity|].
  destruct (step_counts_unique _ _ _ _ _ _ _ (C ltac:(discriminate)) (C' ltac:(discriminate))) as [-> _]. eapply hysteresis_unique; eassumption.
Qed.
Lemma Scal_inj c u v : c <> 0 -> Scal c u = Scal c v -> u = v.
Proof. intros H E. destruct u as [a1 a2 a3], v as [b1 b2 b3]. unfold Scal in E. cbn in E. injection E as B1 B2 B3. f_equal; eapply Rmult_eq_reg_l; eauto. Qed.
Lemma spec_unique s h1 m1 c1 h2 m2 c2 : domains_spec s h1 m1 c1 -> domains_spec s h2 m2 c2 -> (h1, m1, c1) = (h2, m2, c2).
Proof.
  intros (HN & W & th & ph & Hs & EA & ES & LC & HCU & LM & HM) (_ & _ & th' & ph' & Hs' & EA' & ES' & LC' & HCU' & LM' & HM').
  rewrite EA in EA'. injection EA' as <- <-. rewrite ES in ES'. injection ES' as <- <-.
  assert (c1 = c2). { apply nth_error_ext_len; [congruence|]. intros p x y Hx Hy. exact (curve_unique s p Hs x y (HCU p x Hx) (HCU' p y Hy)). } subst c2.
  assert (m1 = m2). { apply nth_error_ext_len; [congruence|]. intros p x y Hx Hy. apply (Scal_inj (total_area s)); [exact W|]. rewrite (HM p x Hx), (HM' p y Hy). reflexivity. } subst m2.
  reflexivity.
Qed.
Lemma domains_iff rng nsrc s Hscan mixed curves : 0 <= df_step s -> simulate_domains rng nsrc s = Ok (Hscan, mixed, curves) <-> domains_spec s Hscan mixed curves.
Proof.
  intros HD. split; [apply domains_sound|]. intros H. destruct (domains_exists rng nsrc s _ _ _ HD H) as [[[h m] c] E]. rewrite E. f_equal.
  exact (spec_unique s _ _ _ _ _ _ (domains_sound _ _ _ _ _ _ E) H).
Qed.

(** ** Consequences *)
Lemma enough_iff s n : enough s n <-> (0 < n)%nat /\ (- df_last s < Z.of_nat n)%Z.
Proof.
  unfold enough, slice_last. destruct (Z.ltb_spec 0 (df_last s)) as [H|H]; rewrite <- length_zero_iff_nil, skipn_length, seq_length; lia.
Qed.
Lemma axis_scan_ok a b n th ph back : (0 <= n)%Z -> exists hs Hs, amplitude_scan a b n th ph back = Ok (hs, Hs) /\ (Hs <> [] <-> (0 < n)%Z).
Proof.
  intros Hn. unfold amplitude_scan, linspace, trig_compute. destruct (Z.ltb_spec n 0) as [X|_]; [lia|]. cbn [rbind].
  assert (Q : forall (A : Type) (f : nat -> A), map f (seq 0 (Z.to_nat n)) <> [] <-> (0 < n)%Z).
  { intros A f. rewrite <- length_zero_iff_nil, map_length, seq_length. lia. }
  destruct back; do 2 eexists; (split; [reflexivity|]); rewrite !map_map; [|apply Q].
  split.
  - intros X. apply (Q cvec (fun i => CV 0 0 0)). intros Y. apply X. destruct (seq 0 (Z.to_nat n)); [reflexivity|discriminate].
  - intros X Y. apply app_eq_nil in Y. destruct Y as [_ Y]. rewrite <- length_zero_iff_nil, rev_length, map_length, seq_length in Y. lia.
Qed.
Lemma answers_iff rng nsrc s : 0 <= df_step s ->
  (exists out, simulate_domains rng nsrc s = Ok out) <->
  (0 < df_N s)%nat /\ total_area s <> 0 /\ In (df_axis s) ["x"; "y"; "z"; "xy"; "xz"; "yz"]%string /\ (0 <= df_Hsteps s)%Z /\
  ((0 < df_Hsteps s)%Z -> df_Ms s <> 0 /\ df_thickness s <> 0 /\
     exists n, step_counts (df_time s / 10 ^ 9) (df_step s) (df_step s) n 1 /\ (0 < n)%nat /\ (- df_last s < Z.of_nat n)%Z).
Proof.
  intros HD. split.
  - intros [[[h m] c] E]. apply domains_sound in E. destruct E as (HN & W & th & ph & Hs & EA & ES & LC & HCU & _).
    split; [exact HN|]. split; [exact W|].
    assert (ST : (0 <= df_Hsteps s)%Z). { unfold amplitude_scan, linspace in ES. destruct (Z.ltb_spec (df_Hsteps s) 0); [discriminate|lia]. }
    split; [|split; [exact ST|]].
    + unfold get_axis_angles in EA. repeat match type of EA with (if String.eqb ?a ?b then _ else _) = _ => destruct (String.eqb_spec a b) as [Q|_]; [rewrite Q; cbn; tauto|] end. discriminate.
    + intros HP. destruct (axis_scan_ok (df_Hmin s * 1000) (df_Hmax s * 1000) (df_Hsteps s) th ph (df_back s) ST) as (hs & Hs' & ES' & NE). rewrite ES in ES'. injection ES' as <- <-.
      apply NE in HP. destruct c as [|c0 c]; [cbn in LC; lia|]. destruct (HCU 0%nat c0 eq_refl) as (P1 & n & P2 & P3). destruct (P1 HP) as [Q1 Q2]. split; [exact Q1|]. split; [exact Q2|].
      exists n. split; [apply P2, HP|]. apply enough_iff. destruct Hs as [|H Hs]; [congruence|]. exact (hysteresis_enough s _ _ _ _ _ _ _ _ _ _ P3).
  - intros (HN & W & HA & ST & HP). unfold simulate_domains.
    assert (EA : exists th ph, get_axis_angles (df_axis s) = Ok (th, ph)).
    { cbn in HA. repeat (destruct HA as [<-|HA]; [cbn; eauto|]). contradiction. }
    destruct EA as (th & ph & EA). rewrite EA. cbn [rbind fst snd].
    destruct (axis_scan_ok (df_Hmin s * 10 ^ 3) (df_Hmax s * 10 ^ 3) (df_Hsteps s) th ph (df_back s) ST) as (hs & Hs & ES & NE). rewrite ES. cbn [rbind fst snd].
    destruct (start_ok rng nsrc s HN) as (ls & j & E1 & E2 & HS & HM). rewrite E1. cbn [rbind]. rewrite E2. cbn [rbind]. fold (wsum s).
    rewrite (proj2 (weights_iff s _ HN) (conj W eq_refl)). cbn [rbind].
    assert (X : exists j' rows, domain_loop s Hs j = (j', Ok rows)).
    { destruct Hs as [|H Hs]; [exists j, []; reflexivity|]. destruct (HP (proj1 NE ltac:(discriminate))) as (P1 & P2 & n & P3 & P4). apply enough_iff in P4. apply (loop_exists s n); assumption. }
    destruct X as (j' & rows & X). rewrite X. cbn [rbind snd]. eauto.
Qed.
(** Points of the curves. *)
Lemma RK4_norm F t dt m m' : RK4_scheme F t dt m m' -> Norm m' <= 1.
Proof.
  intros (f1 & f2 & f3 & f4 & _ & _ & _ & _ & N). apply Normalised_UnitOrZero in N. destruct N as [U| ->]; [rewrite (P_Vec.Norm_unit _ U); lra|rewrite (proj2 (Norm_zero_iff Zero) eq_refl); lra].
Qed.
Lemma Norm_Sum vs : (forall v, In v vs -> Norm v <= 1) -> Norm (Sum vs) <= INR (length vs).
Proof.
  induction vs as [|v vs IH]; intros H; [cbn; rewrite (proj2 (Norm_zero_iff Zero) eq_refl); lra|]. cbn [Sum fold_right length]. fold (Sum vs). rewrite S_INR.
  pose proof (Norm_triangle v (Sum vs)). pose proof (H v (or_introl eq_refl)). pose proof (IH (fun w Hw => H w (or_intror Hw))). lra.
Qed.
Lemma hysteresis_norm k K Ms al dt n last start Hs c : hysteresis k K Ms al dt n last start Hs c -> forall a, In a c -> Norm a <= 1.
Proof.
  induction 1 as [start|start H Hs m ys a rest R S T A _ IH]; intros b Hb; [contradiction|]. destruct Hb as [<-|Hb]; [|exact (IH b Hb)].
  destruct A as [NE A]. assert (P : 0 < INR (length ys)) by (apply lt_0_INR; destruct ys; [congruence|cbn; lia]).
  assert (Q : Norm (Sum ys) <= INR (length ys)).
  { apply Norm_Sum. intros v Hv. destruct T as (hd & E & _). assert (I : In v (map m (seq 1 n))) by (rewrite E; apply in_or_app; right; exact Hv).
    apply in_map_iff in I. destruct I as (i & <- & Hi). apply in_seq in Hi. destruct i as [|i]; [lia|]. exact (RK4_norm _ _ _ _ _ (R i ltac:(lia))). }
  rewrite <- A, Norm_scal_pos in Q by lra. apply (Rmult_le_reg_l (INR (length ys))); [exact P|lra].
Qed.
Lemma total_nonneg s : (forall i, (i < df_N s)%nat -> 0 <= df_area s i) -> 0 <= total_area s.
Proof.
  intros H. unfold total_area. assert (X : forall i, In i (seq 0 (df_N s)) -> 0 <= df_area s i) by (intros i Hi; apply in_seq in Hi; apply H; lia). revert X.
  generalize (seq 0 (df_N s)). induction l as [|i l IH]; intros X; cbn [fold_right]; [lra|]. pose proof (X i (or_introl eq_refl)). pose proof (IH (fun k Hk => X k (or_intror Hk))). lra.
Qed.
Lemma mixed_norm s (curves : list (list cvec)) f : length curves = df_N s -> (forall i, (i < df_N s)%nat -> 0 <= df_area s i) ->
  (forall c a, In c curves -> In a c -> Norm a <= 1) ->
  Norm (Sum (mapi (fun i curve => Scal (df_area s i) (nth f curve Zero)) 0 curves)) <= total_area s.
Proof.
  intros L HA HC. unfold total_area. rewrite <- L in *. assert (Z : Norm Zero = 0) by (apply Norm_zero_iff; reflexivity).
  clear L. revert HA HC. assert (G : forall a, (forall i, (a <= i < a + length curves)%nat -> 0 <= df_area s i) -> (forall c b, In c curves -> In b c -> Norm b <= 1) ->
    Norm (Sum (mapi (fun i curve => Scal (df_area s i) (nth f curve Zero)) a curves)) <= fold_right (fun i x => df_area s i + x) 0 (seq a (length curves))).
  { induction curves as [|c curves IH]; intros a HA HC; [cbn; rewrite Z; lra|]. cbn [mapi Sum fold_right length seq]. fold (Sum (mapi (fun i curve => Scal (df_area s i) (nth f curve Zero)) (S a) curves)).
    eapply Rle_trans; [apply Norm_triangle|]. apply Rplus_le_compat.
    - assert (P : 0 <= df_area s a) by (apply HA; cbn; lia). rewrite Norm_scal_pos by exact P. rewrite <- (Rmult_1_r (df_area s a)) at 2. apply Rmult_le_compat_l; [exact P|].
      destruct (Nat.lt_ge_cases f (length c)) as [Hf|Hf]; [apply (HC c); [left; reflexivity|apply nth_In, Hf]|rewrite nth_overflow by exact Hf; lra].
    - apply IH; [intros i Hi; apply HA; cbn; lia|intros c' b Hc Hb; apply (HC c' b); [right; exact Hc|exact Hb]]. }
  intros HA HC. apply (G 0%nat); [intros i Hi; apply HA; lia|exact HC].
Qed.
