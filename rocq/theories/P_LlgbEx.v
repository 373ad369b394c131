(** Equilibrium states and concrete witnesses for the Landau-Lifshitz-Bloch theorems. *)
From Verif Require Export P_Mfa.
From Coq Require Import Psatz.
Open Scope R_scope.
Open Scope st_scope.

Lemma rest_rhs l T m : T <= b_Tc l -> b_me l <> 0 -> Norm2 m = b_me l * b_me l -> b_rhs l (BI T 0 Zero) m = Zero.
Proof.
  intros HT Hm HN. unfold b_rhs. rewrite free_field. unfold H_long. destruct (Rle_dec T (b_Tc l)); [|lra]. rewrite HN.
  replace ((1 - b_me l * b_me l / (b_me l * b_me l)) / (2 * b_chi l)) with 0.
  - replace (Scal 0 m) with Zero by (destruct m; vsimp; apply vec_eq; ring). unfold LLB. cbn [Sum fold_right bi_T].
    generalize (gamma0 / (1 + b_damping l * b_damping l)) (- (alpha_perp (b_damping l) T (b_Tc l) / Norm2 m)). intros g k. unfold Rdiv.
    replace (Dot m Zero) with 0 by (destruct m; vsimp; ring). rewrite Rmult_0_r, Rmult_0_l.
    clear. destruct m. vsimp. apply vec_eq; ring.
  - replace (b_me l * b_me l / (b_me l * b_me l)) with 1 by (field; exact Hm). unfold Rdiv. ring.
Qed.
Lemma rest_nonzero l T : b_rest l T -> b_mag l <> Zero.
Proof. intros (_ & _ & _ & Hm & HN & _) E. rewrite E in HN. unfold Norm2 in HN. cbn in HN. assert (b_me l * b_me l = 0) by lra. apply Rmult_integral in H. tauto. Qed.
Lemma static_rest l l' T : b_static l l' -> b_mag l' = b_mag l -> b_rest l T -> b_rest l' T.
Proof.
  intros HS HM (HI & HT & Hc & Hm & HN & Hth). split; [intros t; apply (inputs_static l l' t _ HS), HI|].
  unfold b_static in HS. decompose [and] HS. clear HS. unfold b_thermal, variance_perp, variance_par in *.
  repeat match goal with E : b_Tc l' = _ |- _ => rewrite E; clear E | E : b_chi l' = _ |- _ => rewrite E; clear E | E : b_me l' = _ |- _ => rewrite E; clear E
   | E : b_volume l' = _ |- _ => rewrite E; clear E | E : b_Ms l' = _ |- _ => rewrite E; clear E | E : b_damping l' = _ |- _ => rewrite E; clear E end. rewrite HM. auto.
Qed.
Lemma rest_moves mode t dt l T : mode = HEUN \/ mode = EULER_HEUN -> 0 <= dt -> b_rest l T -> exists l', b_moves mode t dt l l'.
Proof.
  intros HM Hd HR. pose proof (rest_nonzero _ _ HR) as Hz. destruct HR as (HI & HT & Hc & Hm & HN & Hth).
  pose proof (rest_rhs l T (b_mag l) HT Hm HN) as E0.
  assert (S0 : b_solvable l (BI T 0 Zero) (b_mag l)) by (split; [apply Hth|]; auto).
  assert (P0 : Plus (b_mag l) (Scal dt Zero) = b_mag l) by apply plus_scaled_zero.
  assert (P1 : Plus (b_mag l) (Scal (dt / 2) (Plus Zero Zero)) = b_mag l).
  { destruct (b_mag l). vsimp. apply vec_eq; ring. }
  exists (set_b_posA (b_posA l + 3) (set_b_posB (b_posB l + 3) (b_logged T T 0 T l))). destruct HM as [-> | ->]; cbn [b_moves].
  - exists (BI T 0 Zero), (BI T 0 Zero). cbv zeta. rewrite E0, P0, E0, P1. split; [apply HI|]. split; [apply HI|]. split; [exact Hd|]. split; [exact Hth|].
    split; [exact S0|]. split; [exact S0|]. split; [reflexivity|]. split; [unfold b_static; cbn; repeat split|]. split; [split; reflexivity|unfold b_logs; repeat split].
  - exists (BI T 0 Zero), T. rewrite E0, P0. split; [apply HI|]. split; [apply HI|]. split; [exact Hd|]. split; [exact Hth|].
    split; [exact S0|]. split; [reflexivity|]. split; [unfold b_static; cbn; repeat split|]. split; [split; reflexivity|unfold b_logs; repeat split].
Qed.
Lemma rest_stays mode t dt l l' T : b_rest l T -> b_moves mode t dt l l' -> b_mag l' = b_mag l /\ b_rest l' T.
Proof.
  intros HR HM. pose proof HR as (HI & HT & Hc & Hm & HN & Hth). pose proof (rest_rhs l T (b_mag l) HT Hm HN) as E0.
  assert (G : b_mag l' = b_mag l /\ b_static l l').
  { destruct mode; try contradiction; cbn [b_moves] in HM.
    - destruct HM as (i & T2 & H1 & _ & _ & _ & _ & EM & HS & _). rewrite (inputs_det _ _ _ _ H1 (HI t)), E0, plus_scaled_zero in EM. auto.
    - destruct HM as (i & i2 & H1 & H2 & _ & _ & _ & HM). cbv zeta in HM. destruct HM as (_ & EM & HS & _).
      rewrite (inputs_det _ _ _ _ H1 (HI t)), (inputs_det _ _ _ _ H2 (HI (t + dt))), E0, plus_scaled_zero, E0 in EM. split; [|exact HS]. rewrite EM.
      clear EM. destruct (b_mag l). vsimp. apply vec_eq; ring. }
  destruct G as [GM GS]. split; [exact GM|]. exact (static_rest l l' T GS GM HR).
Qed.
Lemma rest_list mode t dt : mode = HEUN \/ mode = EULER_HEUN -> 0 <= dt -> forall ls, (forall l, In l ls -> exists T, b_rest l T) ->
  exists ls', Forall2 (b_moves mode t dt) ls ls'.
Proof.
  intros HM Hd. induction ls as [|l ls IH]; intros H; [exists []; constructor|].
  destruct (H l (or_introl eq_refl)) as [T HR]. destruct (rest_moves mode t dt l T HM Hd HR) as [l' Hl]. destruct IH as [ls' Hls]; [intros x Hx; apply H; right; exact Hx|].
  exists (l' :: ls'). constructor; assumption.
Qed.
Lemma rest_after mode t dt ls ls' : Forall2 (b_moves mode t dt) ls ls' -> (forall l, In l ls -> exists T, b_rest l T) -> map b_mag ls' = map b_mag ls /\ (forall l, In l ls' -> exists T, b_rest l T).
Proof.
  intros F. induction F as [|l l' ls ls' Hl F IH]; intros H; [split; [reflexivity|intros l []]|].
  destruct (H l (or_introl eq_refl)) as [T HR]. destruct (rest_stays _ _ _ _ _ _ HR Hl) as [EM HR'].
  destruct IH as [EM' H']; [intros x Hx; apply H; right; exact Hx|]. split; [cbn; rewrite EM, EM'; reflexivity|].
  intros x [<-|Hx]; [eauto|apply H', Hx].
Qed.
Lemma rest_trajectory_exists mode t0 dt ls : mode = HEUN \/ mode = EULER_HEUN -> 0 <= dt -> (forall l, In l ls -> exists T, b_rest l T) ->
  forall N, exists s, s 0%nat = ls /\ b_trajectory mode t0 dt s N /\ (forall l, In l (s N) -> exists T, b_rest l T).
Proof.
  intros HM Hd HR. induction N as [|N (s & H0 & HT & HRN)]; [exists (fun _ => ls); split; [reflexivity|]; split; [intros k Hk; lia|exact HR]|].
  destruct (rest_list mode (t0 + INR (S N) * dt) dt HM Hd (s N) HRN) as [ls' F].
  exists (fun k => if Nat.leb k N then s k else ls'). split; [cbn; exact H0|]. split.
  - intros k Hk. destruct (Nat.eq_dec k N) as [->|Hne].
    + rewrite (proj2 (Nat.leb_le N N)) by lia. rewrite (proj2 (Nat.leb_gt (S N) N)) by lia. exact F.
    + rewrite (proj2 (Nat.leb_le k N)) by lia. rewrite (proj2 (Nat.leb_le (S k) N)) by lia. apply HT. lia.
  - rewrite (proj2 (Nat.leb_gt (S N) N)) by lia. apply (proj2 (rest_after _ _ _ _ _ F HRN)).
Qed.
Lemma rest_run T dt wf mode j N w : (forall l, In l (bj_layers j) -> exists T, b_rest l T) -> stack_counts T dt wf N w -> 0 < dt -> mode = HEUN \/ mode = EULER_HEUN ->
  exists j', b_runSimulation T dt wf mode j = (j', Ok tt) /\ map b_mag (bj_layers j') = map b_mag (bj_layers j) /\ (forall l, In l (bj_layers j') -> exists T, b_rest l T).
Proof.
  intros HR HC Hd HM.
  assert (Hw : (w > 0)%nat).
  { destruct HC as (_ & Hwf & _ & HW). destruct w; [|lia]. exfalso. destruct HW as [_ [[_ IP]|(k & Hk & _)]].
    - assert (1 <= wf / dt) by (apply Rmult_le_reg_r with dt; [exact Hd|]; unfold Rdiv; rewrite Rmult_assoc, Rinv_l by lra; lra). destruct IP as [IP|[IP _]]; cbn in IP; lra.
    - assert (1 <= wf / dt) by (apply Rmult_le_reg_r with dt; [exact Hd|]; unfold Rdiv; rewrite Rmult_assoc, Rinv_l by lra; lra). lra. }
  destruct (rest_trajectory_exists mode (bj_time j) dt (bj_layers j) HM (Rlt_le _ _ Hd) HR N) as (s & H0 & HT & _).
  destruct (run_complete T dt wf mode j N w s HC HM (or_intror Hw) H0 HT) as [j' E]. exists j'. split; [exact E|].
  destruct (run_sound _ _ _ _ _ _ E) as (N' & w' & _ & _ & _ & (s' & H0' & HT' & HL & _)). rewrite HL.
  assert (G : forall k, (k <= N')%nat -> map b_mag (s' k) = map b_mag (bj_layers j) /\ (forall l, In l (s' k) -> exists T, b_rest l T)).
  { induction k as [|k IH]; intros Hk; [rewrite H0'; auto|]. destruct (IH ltac:(lia)) as [A B]. destruct (rest_after _ _ _ _ _ (HT' k ltac:(lia)) B) as [A' B']. split; [rewrite A'; exact A|exact B']. }
  exact (G N' (le_n _)).
Qed.

(** ** Witnesses *)
Definition ex_bl (temp : R) (m : cvec) : blayer :=
  BL "free" m (CV 0 0 1) 1 1 1 1 null_tensor (1 / 10) 700 1 (1 / 2) 0 0 0 0 (cdrv temp) default_driver null_axial (fun _ => 1) 0 (fun _ => 1) 0.
Lemma ex_bl_inputs temp m t : b_inputs_at (ex_bl temp m) t (BI temp 0 Zero).
Proof. unfold b_inputs_at. repeat split. Qed.
Lemma ex_bl_thermal m : b_thermal (ex_bl 350 m) 350.
Proof.
  unfold b_thermal, variance_perp, variance_par, alpha_perp, alpha_par. cbn [b_damping b_Tc b_Ms b_volume ex_bl]. destruct (Rlt_dec 350 700); [|lra].
  assert (KP : 0 < kB) by (unfold kB; apply Rdiv_lt_0_compat; [lra|apply pow_lt; lra]). unfold gamma0. repeat split; try lra; left; apply Rdiv_lt_0_compat; nra.
Qed.
Lemma ex_bl_solvable m : m <> Zero -> b_solvable (ex_bl 350 m) (BI 350 0 Zero) m.
Proof. intros H. unfold b_solvable. cbn [b_Tc b_chi b_me ex_bl bi_T]. repeat split; auto; lra. Qed.
Lemma ex_bl_rest : b_rest (ex_bl 350 (CV 0 0 (1 / 2))) 350.
Proof.
  split; [intros t; apply ex_bl_inputs|]. cbn [b_Tc b_chi b_me b_mag ex_bl]. split; [lra|]. split; [lra|]. split; [lra|]. split; [unfold Norm2; cbn; lra|apply ex_bl_thermal].
Qed.
Lemma ex_bl_derivative m : m <> Zero -> exists l', b_calculateLLG 0 1 m (ex_bl 350 m) = (l', Ok (b_rhs (ex_bl 350 m) (BI 350 0 Zero) m)).
Proof. intros H. eexists. apply llg_iff. exists (BI 350 0 Zero). split; [apply ex_bl_inputs|]. split; [apply ex_bl_solvable, H|]. split; reflexivity. Qed.
(** With an anisotropy the equilibrium length is not stationary: at |m| = me the length grows. *)
Lemma anisotropy_lengthens : exists t dt l l' m d K, b_calculateLLG t dt m l = (l', Ok d) /\ b_inputs_at l t (BI 350 K Zero) /\
  0 < 350 < b_Tc l /\ 0 < b_chi l /\ 0 < b_damping l /\ Norm2 m = b_me l * b_me l /\ 0 < Dot m d.
Proof.
  set (l := set_b_anisotropy (cdrv 1) (ex_bl 350 (CV 0 0 (1 / 2)))). set (m := CV 0 0 (1 / 2)).
  assert (HI : b_inputs_at l 0 (BI 350 1 Zero)) by (unfold b_inputs_at; repeat split).
  assert (Hz : m <> Zero) by (unfold m, Zero; intros E; injection E; lra).
  assert (HS : b_solvable l (BI 350 1 Zero) m) by (unfold b_solvable; cbn; repeat split; auto; lra).
  exists 0, 1, l. eexists. exists m, (b_rhs l (BI 350 1 Zero) m), 1. split; [apply llg_iff; exists (BI 350 1 Zero); split; [exact HI|]; split; [exact HS|]; split; reflexivity|].
  split; [exact HI|]. change (b_Tc l) with 700. change (b_chi l) with 1. change (b_damping l) with (1 / 10). change (b_me l) with (1 / 2). split; [lra|]. split; [lra|]. split; [lra|]. split; [unfold Norm2, m; cbn; lra|].
  rewrite length_rate by exact Hz. assert (HD : Dot m (b_H l (BI 350 1 Zero) m) = 1 / 4).
  { unfold b_H. cbn [bi_K bi_h bi_T Sum fold_right]. change (b_Tc l) with 700. change (b_chi l) with 1. change (b_me l) with (1 / 2). change (b_anis l) with (CV 0 0 1).
    unfold H_long. destruct (Rle_dec 350 700); [|lra]. unfold Norm2, m, Zero. cbn [Dot Scal Plus]. field. }
  rewrite HD. cbn [bi_T]. change (b_Tc l) with 700. change (b_damping l) with (1 / 10). unfold alpha_par, gamma0. lra.
Qed.
(** Without damping, or with a negative temperature, a step has no finite value although the thermal
    fields are multiplied by zero. *)
Lemma no_damping_no_step mode t dt l l' : b_damping l = 0 -> ~ b_moves mode t dt l l'.
Proof.
  assert (Z : forall T, b_damping l = 0 -> ~ b_thermal l T).
  { intros T H0 (_ & _ & _ & Ha & _). apply Ha. rewrite H0. unfold alpha_perp. destruct (Rlt_dec T (b_Tc l)); ring. }
  intros H0 HM. destruct mode; try contradiction.
  - destruct HM as (i & T2 & _ & _ & _ & Hth & _). exact (Z _ H0 Hth).
  - destruct HM as (i & i2 & _ & _ & _ & Hth & _). exact (Z _ H0 Hth).
Qed.

(** ** Constructor, unused members, saving *)
Lemma constructor_iff ra rb id m n Ms th su dm a Tc chi me r : LLGBLayer ra rb id m n Ms th su dm a Tc chi me = r <->
  (su * th = 0 /\ r = Err (Throw "The volume of the LLGB layer cannot be 0!")) \/
  (su * th <> 0 /\ m = Zero /\ r = Err (Throw "Initial magnetisation was set to a zero vector!")) \/
  (su * th <> 0 /\ m <> Zero /\ n = Zero /\ r = Err (Throw "Anisotropy was set to a zero vector!")) \/
  (su * th <> 0 /\ m <> Zero /\ n <> Zero /\
   r = Ok (BL id m n Ms th su (su * th) dm a Tc chi me 0 0 0 0 default_driver default_driver null_axial ra 0 rb 0)).
Proof.
  unfold LLGBLayer. cbv zeta.
  assert (V : forall v, vlength v = 0 <-> v = Zero).
  { intros v. destruct (zero_dec v) as [E|E]; pose proof (vlength_nz v) as [A B]; split; intros X; auto; try contradiction.
    - destruct (Req_dec (vlength v) 0) as [Y|Y]; [exact Y|]. exfalso. exact (A Y E).
    - exfalso. exact (B E X). }
  destruct (Req_EM_T (su * th) 0) as [E|E]; [split; [intros <-; auto|intros [[_ ->]|[(X & _)|[(X & _)|(X & _)]]]; tauto]|].
  destruct (Req_EM_T (vlength m) 0) as [Em|Em].
  { apply V in Em. split; [intros <-; auto|intros [[X _]|[(_ & _ & ->)|[(_ & X & _)|(_ & X & _)]]]; tauto]. }
  assert (Hm : m <> Zero) by (intros X; apply Em, V, X).
  destruct (Req_EM_T (vlength n) 0) as [En|En].
  { apply V in En. split; [intros <-; right; right; left; auto|intros [[X _]|[(_ & X & _)|[(_ & _ & _ & ->)|(_ & _ & X & _)]]]; tauto]. }
  assert (Hn : n <> Zero) by (intros X; apply En, V, X).
  split; [intros <-; right; right; right; auto|intros [[X _]|[(_ & X & _)|[(_ & _ & X & _)|(_ & _ & _ & ->)]]]; tauto].
Qed.
Lemma anisotropy_field_iff t m l l' v : getAnisotropyField t m l = (l', Ok v) <->
  exists K, getCurrentScalarValue (b_anisotropy l) t = Ok K /\ K <> 0 /\ v = Scal (- (1 / K)) (CV (cx m) (cy m) 0) /\ l' = l.
Proof.
  unfold getAnisotropyField. rewrite get_bind. rewrite bind_value. split.
  - intros (K & E & H). apply bind_fdiv in H. destruct H as [HK H]. apply ret_iff in H. destruct H as [-> ->]. exists K. split; [exact E|]. split; [exact HK|]. split; [|reflexivity].
    rewrite vscale_Scal. f_equal. field. exact HK.
  - intros (K & E & HK & -> & ->). exists K. split; [exact E|]. apply bind_fdiv. split; [exact HK|]. apply ret_iff. split; [reflexivity|]. rewrite vscale_Scal. f_equal. field. exact HK.
Qed.
Lemma old_torque_iff m t na ad l l' v : stochasticTorqueOld m t na ad l = (l', Ok v) <->
  exists T, getCurrentScalarValue (b_temperature l) t = Ok T /\ b_Tc l <> 0 /\ m <> Zero /\
    v = Scal (gamma0 / (1 + b_damping l * b_damping l) / Norm2 m)
          (Plus (Scal (alpha_par (b_damping l) T (b_Tc l) * Dot m ad) m)
                (Scal (- alpha_perp (b_damping l) T (b_Tc l)) (Cross m (Cross m na)))) /\
    l' = set_b_aperp_log (alpha_perp (b_damping l) T (b_Tc l)) (set_b_apar_log (alpha_par (b_damping l) T (b_Tc l)) l).
Proof.
  unfold stochasticTorqueOld. rewrite get_bind. rewrite bind_fdiv, vlength_nz. cbv zeta.
  assert (EQ : forall p q, m <> Zero -> vscale (vsub (vscale (vscale m (c_dot m ad)) p) (vscale (c_cross m (c_cross m na)) q)) (GYRO / (1 + b_damping l ^ 2) * (1 / vlength m) ^ 2)
    = Scal (gamma0 / (1 + b_damping l * b_damping l) / Norm2 m) (Plus (Scal (p * Dot m ad) m) (Scal (- q) (Cross m (Cross m na))))).
  { intros p q Hm. rewrite inv_length by exact Hm. rewrite !vscale_Scal, !c_cross_Cross, c_dot_Dot.
    replace (b_damping l ^ 2) with (b_damping l * b_damping l) by ring. change GYRO with gamma0. unfold Rdiv at 2.
    generalize (gamma0 / (1 + b_damping l * b_damping l) * / Norm2 m) (Cross m (Cross m na)) (Dot m ad). clear. intros c [a1 a2 a3] d. destruct m. unfold vsub. vsimp. apply vec_eq; ring. }
  split.
  - intros (Hm & H). apply bind_fdiv in H. destruct H as [_ H]. apply bind_iff in H. destruct H as (l1 & p & H1 & H). apply alpha_par_iff in H1. destruct H1 as (T & ET & HT & -> & ->).
    apply bind_iff in H. destruct H as (l2 & q & H2 & H). apply alpha_perp_iff in H2. destruct H2 as (T' & ET' & _ & -> & ->). cbn [b_temperature b_damping b_Tc set_b_apar_log] in *.
    rewrite ET in ET'. injection ET' as <-. apply ret_iff in H. destruct H as [-> ->]. exists T. split; [exact ET|]. split; [exact HT|]. split; [exact Hm|]. split; [apply EQ, Hm|reflexivity].
  - intros (T & ET & HT & Hm & -> & ->). split; [exact Hm|]. apply bind_fdiv. split; [apply one_sq|]. apply bind_iff. do 2 eexists. split; [apply alpha_par_iff; exists T; split; [exact ET|]; split; [exact HT|]; split; reflexivity|].
    apply bind_iff. do 2 eexists. split; [apply alpha_perp_iff; exists T; split; [exact ET|]; split; [exact HT|]; split; reflexivity|]. apply ret_iff. split; [reflexivity|]. symmetry. apply EQ, Hm.
Qed.
Lemma b_save_iff j f header rows : b_saveLogs j f = Ok (header, rows) <-> f <> ""%string /\ header = map fst (bj_log j) /\ saved (bj_log j) (bj_logLength j) header rows.
Proof.
  unfold b_saveLogs. destruct (String.eqb_spec f ""%string) as [E|E]; [split; [discriminate|tauto]|].
  unfold rbind. destruct (save_rows (bj_logLength j) 0 (bj_log j)) as [rs|e] eqn:ES.
  - split; [intros X; injection X as <- <-; apply save_all in ES; auto|]. intros (_ & -> & H). apply save_all in H. congruence.
  - split; [discriminate|]. intros (_ & -> & H). apply save_all in H. congruence.
Qed.
(** ** The time column *)
Lemma b_row_time ls t : values "time" (b_row ls t) = [t].
Proof.
  unfold b_row. rewrite values_app. rewrite values_none; [reflexivity|]. intros H. apply in_map_iff in H. destruct H as ([k v] & E & H). apply in_flat_map in H. destruct H as (l & _ & H).
  cbn [fst] in E. subst k. assert (G : us "time"%string = 0%nat) by reflexivity.
  assert (U : forall T, us (colname (b_id l) T) <> 0%nat) by (intros T; rewrite us_colname; lia).
  unfold b_layer_row, vec_row in H. cbn [app] in H. rewrite !colname_app in H. cbn [In] in H.
  repeat match goal with H : _ \/ _ |- _ => destruct H as [H|H] end; try contradiction;
    match type of H with (?k, _) = _ => assert (X : k = "time"%string) by (injection H; auto) end; rewrite <- X in G; exact (U _ G).
Qed.
Lemma b_time_column T dt wf mode j j' : b_runSimulation T dt wf mode j = (j', Ok tt) ->
  exists N w, stack_counts T dt wf N w /\ bj_time j' = bj_time j + INR N * dt /\ bj_logLength j' = (bj_logLength j + rows_needed N w)%nat /\
    col "time" (bj_log j') = (col "time" (bj_log j) ++ map (fun k => bj_time j + INR (S (k * w)) * dt) (seq 0 (rows_needed N w)))%list.
Proof.
  intros E. destruct (run_sound _ _ _ _ _ _ E) as (N & w & HC & _ & _ & (s & _ & _ & _ & HT & HL & HG)). exists N, w. split; [exact HC|]. split; [exact HT|]. split; [exact HL|].
  rewrite HG. f_equal. unfold b_rows. generalize (rows_needed N w). intros n. induction (seq 0 n) as [|k ks IH]; [reflexivity|]. cbn [map flat_map]. rewrite b_row_time, IH. reflexivity.
Qed.
Lemma junction_time T dt wf e mode j j' : named j -> runSimulation T dt wf e mode j = (j', Ok tt) ->
  exists N w, step_counts T dt wf N w /\ col "time" (j_log j') = (col "time" (j_log j) ++ map (fun k => INR (k * w) * dt) (seq 0 (rows_needed N w)))%list.
Proof. intros HN E. destruct (run_columns _ _ _ _ _ _ _ HN E) as (N & w & j0 & r & used & s & HC & _ & _ & _ & _ & _ & HT & _). exists N, w. auto. Qed.

(** Two runs, a clearing and one more run of the example junction. *)
Definition ex_bj : bjunction := LLGBJunction [ex_bl 350 (CV 0 0 (1 / 2)); ex_bl 350 (CV (1 / 2) 0 0)].
Lemma ex_bj_rest l : In l (bj_layers ex_bj) -> exists T, b_rest l T.
Proof.
  intros [<-|[<-|[]]]; exists 350; [exact ex_bl_rest|]. split; [intros t; apply ex_bl_inputs|]. cbn [b_Tc b_chi b_me b_mag ex_bl]. split; [lra|]. split; [lra|]. split; [lra|]. split; [unfold Norm2; cbn; lra|apply ex_bl_thermal].
Qed.
Lemma ex_bj_history : exists j', b_history [ORun 10 1 2 HEUN; ORun 10 1 2 EULER_HEUN; OClear; OSet "free" (BEquilibrium (1 / 2)); ORun 10 1 2 HEUN] ex_bj j' /\ bj_time j' = 10 /\
  col "time" (bj_log j') = [1; 3; 5; 7; 9].
Proof.
  assert (D : 0 < 1) by lra. pose proof stack_counts_10_2 as HC.
  destruct (rest_run 10 1 2 HEUN ex_bj 10 2 ex_bj_rest HC D (or_introl eq_refl)) as (j1 & E1 & M1 & R1).
  destruct (rest_run 10 1 2 EULER_HEUN j1 10 2 R1 HC D (or_intror eq_refl)) as (j2 & E2 & M2 & R2).
  destruct (run_sound _ _ _ _ _ _ E1) as (N1 & w1 & _ & _ & _ & (s1 & H01 & HT1 & HL1 & _)).
  destruct (run_sound _ _ _ _ _ _ E2) as (N2 & w2 & _ & _ & _ & (s2 & H02 & HT2 & HL2 & _)).
  assert (ST : forall mode t0 N s, b_trajectory mode t0 1 s N -> forall k, (k <= N)%nat -> Forall2 b_static (s 0%nat) (s k)).
  { intros mode t0 N s HT. induction k as [|k IH]; intros Hk.
    - generalize (s 0%nat). intros ls. induction ls; constructor; [unfold b_static; repeat split|assumption].
    - specialize (IH ltac:(lia)). pose proof (HT k ltac:(lia)) as F. revert IH F. generalize (s 0%nat) (s k) (s (S k)). clear. intros a b c F. revert c. induction F as [|x y a b Hxy F IH]; intros c G; inversion G; subst; constructor; auto.
      assert (Y : b_static y y0). { match goal with H : b_moves mode _ _ y y0 |- _ => destruct mode; try contradiction; cbn [b_moves] in H end.
        - match goal with H : euler_moves _ _ _ _ |- _ => destruct H as (? & ? & _ & _ & _ & _ & _ & _ & HS & _); exact HS end.
        - match goal with H : heun_moves _ _ _ _ |- _ => destruct H as (? & ? & _ & _ & _ & _ & _ & H); cbv zeta in H; destruct H as (_ & _ & HS & _); exact HS end. }
      unfold b_static in *. decompose [and] Hxy. decompose [and] Y. repeat split; congruence. }
  pose proof (ST _ _ _ _ HT1 N1 (le_n _)) as F1. rewrite H01, <- HL1 in F1. pose proof (ST _ _ _ _ HT2 N2 (le_n _)) as F2. rewrite H02, <- HL2 in F2.
  assert (I2 : map b_id (bj_layers j2) = map b_id (bj_layers ex_bj) /\ map b_me (bj_layers j2) = map b_me (bj_layers ex_bj)).
  { assert (G : forall a b, Forall2 b_static a b -> map b_id b = map b_id a /\ map b_me b = map b_me a).
    { clear. intros a b F. induction F as [|x y a b H F [IH1 IH2]]; [auto|]. cbn. rewrite IH1, IH2. unfold b_static in H. decompose [and] H. split; congruence. }
    destruct (G _ _ F1) as [A B], (G _ _ F2) as [A' B']. rewrite A', B', A, B. auto. }
  set (j3 := BJ (bj_layers j2) [] 0 0).
  assert (E4 : b_member "free" (BEquilibrium (1 / 2)) j3 = (j3, Ok tt)).
  { apply setter_iff. split; [|split].
    - cbn [bj_layers j3]. destruct I2 as [_ I2]. cbn in I2. clear -I2. assert (G : forall l, In l (bj_layers j2) -> b_me l = 1 / 2).
      { intros l Hl. apply (in_map b_me) in Hl. rewrite I2 in Hl. cbn in Hl. destruct Hl as [<-|[<-|[]]]; reflexivity. }
      clear I2. induction (bj_layers j2) as [|l ls IH]; constructor; [|apply IH; intros x Hx; apply G; right; exact Hx].
      split; [|auto]. intros _. apply effect_update. assert (b_me l = 1 / 2) by (apply G; left; reflexivity). cbn. destruct l. cbn in *. subst. reflexivity.
    - reflexivity.
    - left. split; [|reflexivity]. destruct I2 as [I2 _]. cbn in I2. cbn [bj_layers j3]. destruct (bj_layers j2) as [|l ls]; [discriminate|]. exists l. split; [left; reflexivity|]. right. cbn in I2. congruence. }
  destruct (rest_run 10 1 2 HEUN j3 10 2 R2 HC D (or_introl eq_refl)) as (j5 & E5 & _ & _).
  exists j5. split; [|].
  - apply bh_cons with j1; [exact E1|]. apply bh_cons with j2; [exact E2|]. apply bh_cons with j3; [reflexivity|]. apply bh_cons with j3; [exact E4|]. apply bh_cons with j5; [exact E5|constructor].
  - destruct (b_time_column _ _ _ _ _ _ E5) as (N & w & HC' & Ht & _ & Hc). destruct (counts_det _ _ _ _ _ _ _ HC' HC) as [-> ->]. rewrite Ht, Hc. cbn [bj_time bj_log j3]. split; [cbn; lra|].
    change (rows_needed 10 2) with 5%nat. change (col "time" []) with (@nil R). cbn [seq map app Nat.mul Nat.add].
    assert (C : forall (a b : R) x y, a = b -> x = y -> a :: x = b :: y) by (intros; subst; reflexivity).
    repeat (apply C; [simpl INR; lra|]). reflexivity.
Qed.
(** ** A layer that relaxes: along a fixed direction below Tc the length follows the closed form. *)
Definition ex_curve (c t : R) : R := 1 / 2 / sqrt (1 + c * exp (- b_rate (ex_bl 350 Zero) 350 * t)).
Lemma ex_relaxing c : 0 <= c -> exists d, b_solves (ex_bl 350 (CV 0 0 (1 / 2))) (fun t => CV 0 0 (ex_curve c t)) d /\ ex_curve c 0 = 1 / 2 / sqrt (1 + c).
Proof.
  intros Hc. set (l := ex_bl 350 (CV 0 0 (1 / 2))). set (r := b_rate (ex_bl 350 Zero) 350).
  set (w t := 1 + c * exp (- r * t)).
  assert (W : forall t, 0 < w t) by (intros t; unfold w; pose proof (exp_pos (- r * t)); nra).
  assert (SW : forall t, 0 < sqrt (w t)) by (intros t; apply sqrt_lt_R0, W).
  assert (NZ : forall t, CV 0 0 (ex_curve c t) <> Zero).
  { intros t E. injection E as E. unfold ex_curve in E. fold r in E. fold (w t) in E. assert (0 < 1 / 2 / sqrt (w t)) by (apply Rdiv_lt_0_compat; [lra|apply SW]). lra. }
  assert (RHS : forall t, b_rhs l (BI 350 0 Zero) (CV 0 0 (ex_curve c t)) = CV 0 0 (r / 2 * (1 - 4 * (ex_curve c t * ex_curve c t)) * ex_curve c t)).
  { intros t. unfold b_rhs. rewrite free_field. cbn [bi_T]. unfold H_long. change (b_Tc l) with 700. destruct (Rle_dec 350 700); [|lra].
    change (b_chi l) with 1. change (b_me l) with (1 / 2). change (b_damping l) with (1 / 10).
    assert (Q : ex_curve c t <> 0) by (intros E; apply (NZ t); rewrite E; reflexivity). unfold r, b_rate. change (b_chi (ex_bl 350 Zero)) with 1. change (b_damping (ex_bl 350 Zero)) with (1 / 10). change (b_Tc (ex_bl 350 Zero)) with 700.
    clear -Q. generalize dependent (ex_curve c t). intros q Q. unfold LLB, Norm2. cbn [Dot Scal Cross Sum fold_right Plus]. unfold Zero. cbn [Dot Scal Cross Plus]. apply vec_eq; field; exact Q. }
  exists (fun t => b_rhs l (BI 350 0 Zero) (CV 0 0 (ex_curve c t))). split.
  - intros t. split; [|].
    + eexists. apply llg_iff. exists (BI 350 0 Zero). split; [apply ex_bl_inputs|]. split; [|split; reflexivity]. unfold b_solvable. cbn. repeat split; try lra. apply NZ.
    + rewrite RHS. cbn [cx cy cz]. split; [apply derivable_pt_lim_const|]. split; [apply derivable_pt_lim_const|].
      assert (DW : derivable_pt_lim w t (c * (- r * exp (- r * t)))).
      { apply (lim_ext (fun t => 1 + c * exp (- r * t))); [intros; reflexivity|]. replace (c * (- r * exp (- r * t))) with (0 + c * (- r * exp (- r * t))) by ring.
        apply (derivable_pt_lim_plus (fun _ => 1) (fun t => c * exp (- r * t))); [apply derivable_pt_lim_const|]. apply (derivable_pt_lim_scal (fun t => exp (- r * t)) c), exp_scaled. }
      assert (DS : derivable_pt_lim (fun t => sqrt (w t)) t (/ (2 * sqrt (w t)) * (c * (- r * exp (- r * t))))).
      { apply (derivable_pt_lim_comp w sqrt); [exact DW|]. apply derivable_pt_lim_sqrt, W. }
      apply (lim_ext (fun t => / 2 * / sqrt (w t))); [intros u; unfold ex_curve; fold r; fold (w u); pose proof (SW u); field; lra|].
      assert (DI : derivable_pt_lim (fun t => / sqrt (w t)) t (- (/ (2 * sqrt (w t)) * (c * (- r * exp (- r * t)))) / Rsqr (sqrt (w t)))).
      { apply (lim_ext (fun t => 1 / sqrt (w t))); [intros u; unfold Rdiv; ring|].
        replace (- (/ (2 * sqrt (w t)) * (c * (- r * exp (- r * t)))) / Rsqr (sqrt (w t))) with ((0 * sqrt (w t) - (/ (2 * sqrt (w t)) * (c * (- r * exp (- r * t)))) * 1) / Rsqr (sqrt (w t))) by (unfold Rdiv; ring).
        apply (derivable_pt_lim_div (fun _ => 1) (fun t => sqrt (w t))); [apply derivable_pt_lim_const|exact DS|]. pose proof (SW t). lra. }
      apply (derivable_pt_lim_scal _ (/ 2)) in DI. unfold mult_real_fct in DI.
      match type of DI with derivable_pt_lim _ _ ?a => match goal with |- derivable_pt_lim _ _ ?b => replace b with a; [exact DI|] end end.
      unfold ex_curve. fold r. fold (w t). pose proof (SW t) as S1. assert (S2 : sqrt (w t) * sqrt (w t) = w t) by (apply sqrt_sqrt; left; apply W).
      assert (EE : c * exp (- r * t) = w t - 1) by (unfold w; ring). replace (c * (- r * exp (- r * t))) with (- r * (w t - 1)) by (rewrite <- EE; ring).
      clear -S1 S2. generalize dependent (sqrt (w t)). generalize (w t). intros v s S1 <-. unfold Rsqr. field. lra.
  - unfold ex_curve. rewrite Rmult_0_r, exp_0, Rmult_1_r. reflexivity.
Qed.
