(** Damped relaxation: trajectories, simulations and the exact solution. *)
From Verif Require Import P_RunProps P_LayerProps P_Step4 P_Converge P_ConvergeRun P_Metric P_Precess P_PrecessRun P_Exchange P_RunEx P_Alone P_DW P_RelaxStep.
From Verif Require Export P_Relax.
From Coq Require Import Reals Lra Lia Psatz.
Open Scope R_scope.

(** ** One step *)
Lemma normalised_along n m v m' : Unit n -> Unit m -> Normalised (tilted n m (cx v) (cy v) (cz v)) m' ->
  Dot n m' = cz v / sqrt ((1 - Dot n m * Dot n m) * (cx v * cx v + cy v * cy v) + cz v * cz v).
Proof.
  intros U V H. pose proof (tilted_norm n m (cx v) (cy v) (cz v) U V) as E. pose proof (tilted_along n m (cx v) (cy v) (cz v) U) as A. rewrite <- E.
  destruct H as [[Z ->]|[NZ ->]].
  - rewrite Z in A. assert (D : Dot n Zero = 0) by (destruct n; unfold Dot, Zero; cbn; ring). rewrite D in A. rewrite D, <- A. unfold Rdiv. ring.
  - unfold Norm. rewrite Dot_Scal, A. unfold Rdiv. ring.
Qed.
Lemma damped_recurrence r t dt j j' p l l' alpha h n : r = RunSingle \/ r = RunMulti -> Unit n -> Unit (l_mag l) -> damped_in l alpha h n ->
  (r = RunSingle -> length (j_layers j) = 1%nat) ->
  run_runner r t dt j = (j', Ok tt) -> nth_error (j_layers j) p = Some l -> nth_error (j_layers j') p = Some l' ->
  Dot n (l_mag l') = next_along alpha (turn_rate alpha h * dt) (Dot n (l_mag l)).
Proof.
  intros Hrk U V HD Hr E Hp Hp'. pose proof (damped_step r t dt j j' p l l' alpha h n Hrk U V HD Hr E Hp Hp') as H. cbv zeta in H.
  exact (normalised_along n (l_mag l) _ _ U V H).
Qed.

(** ** Trajectories *)
Section Traj.
Context (r : runner) (dt : R) (s : nat -> junction) (N p : nat) (l : layer) (alpha h : R) (n : cvec).
Context (Hrk : r = RunSingle \/ r = RunMulti) (U : Unit n) (Um : Unit (l_mag l)) (HG : damped_in l alpha h n) (Hr : r = RunSingle -> length (j_layers (s 0%nat)) = 1%nat).
Context (HTr : trajectory r dt s N) (Hp : nth_error (j_layers (s 0%nat)) p = Some l).
Let a := turn_rate alpha h * dt.
Context (HA : 0 < alpha <= 1) (HS : 0 < a <= 1 / 32).
Let x k := match nth_error (j_layers (s k)) p with Some lk => Dot n (l_mag lk) | None => 0 end.
Lemma damped_states k : (k <= N)%nat -> exists lk, nth_error (j_layers (s k)) p = Some lk /\ Unit (l_mag lk) /\ damped_in lk alpha h n /\ x k = Dot n (l_mag lk) /\ -1 <= x k <= 1.
Proof.
  induction k as [|k IH]; intros Hk.
  - exists l. split; [exact Hp|]. split; [exact Um|]. split; [exact HG|]. unfold x. rewrite Hp. split; [reflexivity|]. apply unit_dot_bounds; assumption.
  - destruct (IH ltac:(lia)) as (lk & Hlk & Uk & Dk & Ek & Bk). pose proof (HTr k ltac:(lia)) as E.
    pose proof (traj_static _ _ _ _ (S k) HTr Hk) as (_ & LE & ST). destruct (nth_error_same_length _ _ _ _ LE Hp) as [l1 Hl1].
    pose proof (traj_static _ _ _ _ k HTr ltac:(lia)) as (_ & LE' & _).
    assert (U1 : Unit (l_mag l1)).
    { pose proof (damped_step r (INR k * dt) dt (s k) (s (S k)) p lk l1 alpha h n Hrk U Uk Dk ltac:(intros Q; rewrite LE'; apply Hr; exact Q) E Hlk Hl1) as H. cbv zeta in H.
      fold a in H. rewrite <- Ek in H.
      destruct (root_bounds a alpha (x k) HS HA Bk) as (RP & _). set (c := classical alpha (1 - x k * x k) a (CV 1 0 (x k))) in *.
      assert (NZ : tilted n (l_mag lk) (cx c) (cy c) (cz c) <> Zero).
      { intros Z. pose proof (tilted_norm n (l_mag lk) (cx c) (cy c) (cz c) U Uk) as E2. rewrite Z, <- Ek in E2. rewrite <- E2 in RP. replace (Norm2 Zero) with 0 in RP by (unfold Norm2, Dot, Zero; cbn; ring). rewrite sqrt_0 in RP. lra. }
      destruct H as [[Z _]|[_ ->]]; [contradiction|]. rewrite <- vnormalize_nonzero by exact NZ. apply vnormalize_unit. exact NZ. }
    exists l1. split; [exact Hl1|]. split; [exact U1|]. split; [exact (damped_static l l1 alpha h n (ST p l l1 Hp Hl1) HG)|]. unfold x. rewrite Hl1. split; [reflexivity|]. apply unit_dot_bounds; assumption.
Qed.
Lemma damped_next k : (k < N)%nat -> x (S k) = next_along alpha a (x k).
Proof.
  intros Hk. destruct (damped_states k ltac:(lia)) as (lk & Hlk & Uk & Dk & Ek & _). destruct (damped_states (S k) Hk) as (l1 & Hl1 & _ & _ & E1 & _).
  pose proof (traj_static _ _ _ _ k HTr ltac:(lia)) as (_ & LE' & _). rewrite E1, Ek.
  exact (damped_recurrence r (INR k * dt) dt (s k) (s (S k)) p lk l1 alpha h n Hrk U Uk Dk ltac:(intros Q; rewrite LE'; apply Hr; exact Q) (HTr k Hk) Hlk Hl1).
Qed.
Lemma damped_rises k : (k < N)%nat -> 0 <= x k \/ a ^ 5 <= alpha -> x k + a * alpha / 2 * (1 - x k * x k) <= x (S k).
Proof. intros Hk H. rewrite (damped_next k Hk). destruct (damped_states k ltac:(lia)) as (lk & _ & _ & _ & _ & B). apply approaches; assumption. Qed.
Lemma damped_below k : (k <= N)%nat -> 0 <= x 0%nat \/ a ^ 5 <= alpha -> x 0%nat <= x k /\ 1 - x k <= (1 - x 0%nat) * (1 - a * alpha / 2 * (1 + x 0%nat)) ^ k.
Proof.
  intros Hk H0. destruct (damped_states 0 ltac:(lia)) as (_ & _ & _ & _ & _ & B0). assert (AP : 0 < a * alpha <= 1 / 32) by (split; [apply Rmult_lt_0_compat; lra|]; apply Rle_trans with (1 / 32 * 1); [apply Rmult_le_compat; lra|lra]).
  induction k as [|k IH]; [cbn [pow]; lra|]. destruct (IH ltac:(lia)) as [A B]. destruct (damped_states k ltac:(lia)) as (_ & _ & _ & _ & _ & BK).
  pose proof (damped_rises k ltac:(lia) ltac:(destruct H0; [left; lra|right; assumption])) as R1. set (g := a * alpha / 2) in *. assert (GP : 0 < g <= 1 / 64) by (unfold g; lra). clearbody g.
  assert (0 <= g * (1 - x k * x k)) by (apply Rmult_le_pos; nra). split; [lra|]. cbn [pow].
  assert (C : 1 - x (S k) <= (1 - x k) * (1 - g * (1 + x 0%nat))). { assert (g * ((1 - x k) * (1 + x 0%nat)) <= g * ((1 - x k) * (1 + x k))) by (apply Rmult_le_compat_l; [lra|apply Rmult_le_compat_l; lra]). lra. }
  assert (P : 0 <= 1 - g * (1 + x 0%nat)) by (assert (g * (1 + x 0%nat) <= 1 / 64 * 2) by (apply Rmult_le_compat; lra); lra).
  apply Rle_trans with ((1 - x k) * (1 - g * (1 + x 0%nat))); [exact C|]. apply Rle_trans with ((1 - x 0%nat) * (1 - g * (1 + x 0%nat)) ^ k * (1 - g * (1 + x 0%nat))); [apply Rmult_le_compat_r; assumption|lra].
Qed.
Lemma damped_above k : (k <= N)%nat -> a ^ 5 <= alpha -> (1 - x 0%nat) * (1 - 3 * (a * alpha)) ^ k <= 1 - x k.
Proof.
  intros Hk H5. assert (AP : 0 < a * alpha <= 1 / 32) by (split; [apply Rmult_lt_0_compat; lra|]; apply Rle_trans with (1 / 32 * 1); [apply Rmult_le_compat; lra|lra]).
  induction k as [|k IH]; [cbn [pow]; lra|]. specialize (IH ltac:(lia)). destruct (damped_states k ltac:(lia)) as (_ & _ & _ & _ & _ & BK).
  rewrite (damped_next k ltac:(lia)). pose proof (not_faster a alpha (x k) HS HA BK H5) as NF. set (g := a * alpha) in *. clearbody g. cbn [pow].
  apply Rle_trans with ((1 - x k) * (1 - 3 * g)).
  - rewrite (Rmult_comm (1 - 3 * g)), <- Rmult_assoc. apply Rmult_le_compat_r; [lra|exact IH].
  - assert (3 / 2 * g * ((1 - x k) * (1 + x k)) <= 3 / 2 * g * ((1 - x k) * 2)) by (apply Rmult_le_compat_l; [lra|apply Rmult_le_compat_l; lra]). lra.
Qed.
Lemma damped_falls k : (k <= N)%nat -> x 0%nat <= - (1 / 2) -> alpha <= a ^ 5 / 500 -> x k <= - (1 / 2) /\ ((k < N)%nat -> x (S k) <= x k - a ^ 6 / 4000 * (1 - x k * x k)).
Proof.
  intros Hk H0 H5. induction k as [|k IH].
  - split; [exact H0|]. intros Hk'. rewrite (damped_next 0 Hk'). destruct (damped_states 0 ltac:(lia)) as (_ & _ & _ & _ & _ & BK). apply retreats; assumption.
  - destruct (IH ltac:(lia)) as [A B]. specialize (B ltac:(lia)). destruct (damped_states k ltac:(lia)) as (_ & _ & _ & _ & _ & BK). destruct (damped_states (S k) Hk) as (_ & _ & _ & _ & _ & BS).
    assert (0 <= a ^ 6 / 4000 * (1 - x k * x k)) by (apply Rmult_le_pos; [assert (0 <= a ^ 6) by (apply pow_le; lra); lra|nra]). split; [lra|].
    intros Hk'. rewrite (damped_next (S k) Hk'). apply retreats; try assumption. lra.
Qed.
End Traj.

(** ** In terms of the layers *)
Section Public.
Context (r : runner) (dt : R) (s : nat -> junction) (N p : nat) (l : layer) (alpha h : R) (n : cvec).
Context (Hrk : r = RunSingle \/ r = RunMulti) (U : Unit n) (Um : Unit (l_mag l)) (HG : damped_in l alpha h n) (Hr : r = RunSingle -> length (j_layers (s 0%nat)) = 1%nat).
Context (HTr : trajectory r dt s N) (Hp : nth_error (j_layers (s 0%nat)) p = Some l).
Let a := turn_rate alpha h * dt.
Context (HA : 0 < alpha <= 1) (HS : 0 < a <= 1 / 32).
Lemma relax_state k lk : (k <= N)%nat -> nth_error (j_layers (s k)) p = Some lk -> Unit (l_mag lk) /\ damped_in lk alpha h n.
Proof.
  intros Hk H. destruct (damped_states r dt s N p l alpha h n Hrk U Um HG Hr HTr Hp HA HS k Hk) as (x & Hx & A & B & _). assert (x = lk) by congruence. subst x. auto.
Qed.
Lemma relax_rises k lk lk' : (k < N)%nat -> nth_error (j_layers (s k)) p = Some lk -> nth_error (j_layers (s (S k))) p = Some lk' ->
  let q := Dot n (l_mag lk) in 0 <= q \/ a ^ 5 <= alpha -> q + a * alpha / 2 * (1 - q * q) <= Dot n (l_mag lk').
Proof. intros Hk H H' q HC. pose proof (damped_rises r dt s N p l alpha h n Hrk U Um HG Hr HTr Hp HA HS k Hk) as X. cbv beta in X. rewrite H, H' in X. exact (X HC). Qed.
Lemma relax_rate k lk : (k <= N)%nat -> nth_error (j_layers (s k)) p = Some lk ->
  let q := Dot n (l_mag l) in 0 <= q \/ a ^ 5 <= alpha -> q <= Dot n (l_mag lk) <= 1 /\ 1 - Dot n (l_mag lk) <= (1 - q) * (1 - a * alpha / 2 * (1 + q)) ^ k.
Proof.
  intros Hk H q HC. pose proof (damped_below r dt s N p l alpha h n Hrk U Um HG Hr HTr Hp HA HS k Hk) as X. cbv beta in X. rewrite H, Hp in X. destruct (X HC) as [A B]. split; [|exact B]. split; [exact A|].
  apply unit_dot_bounds; [exact U|]. exact (proj1 (relax_state k lk Hk H)).
Qed.
Lemma relax_not_faster k lk : (k <= N)%nat -> nth_error (j_layers (s k)) p = Some lk -> a ^ 5 <= alpha ->
  (1 - Dot n (l_mag l)) * (1 - 3 * (a * alpha)) ^ k <= 1 - Dot n (l_mag lk).
Proof. intros Hk H HC. pose proof (damped_above r dt s N p l alpha h n Hrk U Um HG Hr HTr Hp HA HS k Hk HC) as X. cbv beta in X. rewrite H, Hp in X. exact X. Qed.
Lemma relax_falls k lk lk' : (k < N)%nat -> nth_error (j_layers (s k)) p = Some lk -> nth_error (j_layers (s (S k))) p = Some lk' -> Dot n (l_mag l) <= - (1 / 2) -> alpha <= a ^ 5 / 500 ->
  Dot n (l_mag lk) <= - (1 / 2) /\ Dot n (l_mag lk') <= Dot n (l_mag lk) - a ^ 6 / 4000 * (1 - Dot n (l_mag lk) * Dot n (l_mag lk)).
Proof.
  intros Hk H H' H0 HC. pose proof (damped_falls r dt s N p l alpha h n Hrk U Um HG Hr HTr Hp HA HS k ltac:(lia)) as X. cbv beta in X. rewrite H, H', Hp in X. destruct (X H0 HC) as [A B]. auto.
Qed.
End Public.
Lemma pow_small b eps : 0 <= b < 1 -> 0 < eps -> exists K, forall k, (K <= k)%nat -> b ^ k < eps.
Proof.
  intros Hb He. destruct (pow_lt_1_zero b ltac:(rewrite Rabs_pos_eq; lra) eps He) as [K HK]. exists K. intros k Hk. pose proof (HK k ltac:(lia)) as X. rewrite Rabs_pos_eq in X by (apply pow_le; lra). exact X.
Qed.
Lemma relax_limit r alpha a q eps : r = RunSingle \/ r = RunMulti -> 0 < alpha <= 1 -> 0 < a <= 1 / 32 -> -1 < q <= 1 -> 0 <= q \/ a ^ 5 <= alpha -> 0 < eps ->
  exists K, forall dt s N p l lN h n, (K <= N)%nat -> Unit n -> Unit (l_mag l) -> damped_in l alpha h n -> turn_rate alpha h * dt = a -> Dot n (l_mag l) = q ->
  (r = RunSingle -> length (j_layers (s 0%nat)) = 1%nat) -> trajectory r dt s N -> nth_error (j_layers (s 0%nat)) p = Some l ->
  nth_error (j_layers (s N)) p = Some lN -> 1 - eps < Dot n (l_mag lN) <= 1.
Proof.
  intros Hrk HA HS Hq HC He. assert (G : 0 < a * alpha / 2 * (1 + q) < 1).
  { assert (0 < a * alpha <= 1 / 32 * 1) by (split; [apply Rmult_lt_0_compat; lra|apply Rmult_le_compat; lra]). split; [apply Rmult_lt_0_compat; lra|]. apply Rle_lt_trans with (1 / 64 * 2); [apply Rmult_le_compat; lra|lra]. }
  destruct (pow_small (1 - a * alpha / 2 * (1 + q)) (eps / 2) ltac:(lra) ltac:(lra)) as [K HK]. exists K.
  intros dt s N p l lN h n HN U Um HG Ea Eq Hr HTr Hp HpN. rewrite <- Ea in HS, HC.
  destruct (relax_rate r dt s N p l alpha h n Hrk U Um HG Hr HTr Hp HA HS N lN (le_n N) HpN ltac:(rewrite Eq; exact HC)) as [A B]. rewrite Ea, Eq in B. split; [|lra].
  specialize (HK N HN). assert ((1 - q) * (1 - a * alpha / 2 * (1 + q)) ^ N <= 2 * (1 - a * alpha / 2 * (1 + q)) ^ N) by (apply Rmult_le_compat_r; [apply pow_le; lra|lra]). lra.
Qed.
Lemma relax_wrong r alpha a q eps : r = RunSingle \/ r = RunMulti -> 0 < alpha <= 1 -> 0 < a <= 1 / 32 -> -1 <= q <= - (1 / 2) -> alpha <= a ^ 5 / 500 -> 0 < eps ->
  exists K, forall dt s N p l lN h n, (K <= N)%nat -> Unit n -> Unit (l_mag l) -> damped_in l alpha h n -> turn_rate alpha h * dt = a -> Dot n (l_mag l) = q ->
  (r = RunSingle -> length (j_layers (s 0%nat)) = 1%nat) -> trajectory r dt s N -> nth_error (j_layers (s 0%nat)) p = Some l ->
  nth_error (j_layers (s N)) p = Some lN -> -1 <= Dot n (l_mag lN) < -1 + eps.
Proof.
  intros Hrk HA HS Hq HC He. destruct (falls q (a ^ 6 / 4000) eps) as [K HK]; [assert (0 < a ^ 6) by (apply pow_lt; lra); lra|lra|exact He|]. exists K.
  intros dt s N p l lN h n HN U Um HG Ea Eq Hr HTr Hp HpN. rewrite <- Ea in HS, HC.
  set (x := fun k => match nth_error (j_layers (s k)) p with Some lk => Dot n (l_mag lk) | None => 0 end).
  pose proof (damped_states r dt s N p l alpha h n Hrk U Um HG Hr HTr Hp HA HS) as ST. pose proof (damped_falls r dt s N p l alpha h n Hrk U Um HG Hr HTr Hp HA HS) as FL. cbv beta in ST, FL. fold x in ST, FL.
  assert (X0 : x 0%nat = q) by (unfold x; rewrite Hp; exact Eq). assert (XN : x N = Dot n (l_mag lN)) by (unfold x; rewrite HpN; reflexivity). rewrite <- XN.
  split; [destruct (ST N (le_n N)) as (_ & _ & _ & _ & _ & B); apply B|]. apply HK; [exact HN|exact X0| |].
  - intros k Hk. destruct (ST k Hk) as (_ & _ & _ & _ & _ & B). exact B.
  - intros k Hk. rewrite <- Ea. apply (FL k ltac:(lia)); [change (x 0%nat <= - (1 / 2)); lra|exact HC|exact Hk].
Qed.

(** ** Simulations *)
Lemma relax_run T dt wf e j j' p l l' alpha h n : (forall x, In x (j_layers j) -> quiet x) ->
  runSimulation T dt wf e RK4 j = (j', Ok tt) -> nth_error (j_layers j) p = Some l -> nth_error (j_layers j') p = Some l' ->
  Unit n -> Unit (l_mag l) -> damped_in l alpha h n -> 0 < alpha <= 1 ->
  let a := turn_rate alpha h * dt in let q := Dot n (l_mag l) in 0 < a <= 1 / 32 ->
  exists N, IntegerPart (T / dt) N /\ Unit (l_mag l') /\
    (0 <= q \/ a ^ 5 <= alpha -> q <= Dot n (l_mag l') <= 1 /\ 1 - Dot n (l_mag l') <= (1 - q) * (1 - a * alpha / 2 * (1 + q)) ^ N) /\
    (a ^ 5 <= alpha -> (1 - q) * (1 - 3 * (a * alpha)) ^ N <= 1 - Dot n (l_mag l')).
Proof.
  intros HQ E Hp Hp' U Um HG HA a q HS.
  destruct (run_sound _ _ _ _ _ _ _ E) as (N & w & j0 & r & used & s & rows & HC & HSel & Hs & Htr & _ & _ & Ej & _).
  destruct (P_ConvergeRun.quiet_run RK4 N j j0 r used HQ HSel) as [-> H1]. pose proof (quiet_used RK4 N j j r used HQ HSel) as X.
  assert (Hrk : r = RunSingle \/ r = RunMulti) by (rewrite X; cbn; destruct (layerNo j) as [|[|k]]; auto).
  assert (Hl' : nth_error (j_layers (s N)) p = Some l') by (rewrite Ej in Hp'; exact Hp').
  assert (Hl : nth_error (j_layers (s 0%nat)) p = Some l) by (rewrite Hs; exact Hp).
  assert (HR : r = RunSingle -> length (j_layers (s 0%nat)) = 1%nat) by (rewrite Hs; exact H1).
  exists N. split; [apply HC|]. split; [exact (proj1 (relax_state r dt s N p l alpha h n Hrk U Um HG HR Htr Hl HA HS N l' (le_n N) Hl'))|]. split.
  - exact (relax_rate r dt s N p l alpha h n Hrk U Um HG HR Htr Hl HA HS N l' (le_n N) Hl').
  - exact (relax_not_faster r dt s N p l alpha h n Hrk U Um HG HR Htr Hl HA HS N l' (le_n N) Hl').
Qed.

(** ** The exact solution *)
Lemma relaxed_bottom q x : -1 <= q <= 1 -> 0 < (1 + q) * exp x + (1 - q) * exp (- x).
Proof. intros H. pose proof (exp_pos x). pose proof (exp_pos (- x)). destruct (Rle_dec 0 q); nra. Qed.
Lemma relaxed_start q : relaxed q 0 = q.
Proof. unfold relaxed. rewrite Ropp_0, exp_0. field; lra. Qed.
Lemma relaxed_limit q x : -1 < q <= 1 -> 0 <= 1 - relaxed q x <= 2 * (1 - q) / (1 + q) * exp (- (2 * x)).
Proof.
  intros H. pose proof (relaxed_bottom q x ltac:(lra)) as B. unfold relaxed. replace (1 - _) with (2 * (1 - q) * exp (- x) / ((1 + q) * exp x + (1 - q) * exp (- x))) by (field; lra).
  pose proof (exp_pos x) as P. pose proof (exp_pos (- x)) as Q. assert (0 <= (1 - q) * exp (- x)) by (apply Rmult_le_pos; lra). split.
  - apply Rmult_le_pos; [lra|]. left. apply Rinv_0_lt_compat. exact B.
  - replace (exp (- (2 * x))) with (exp (- x) / exp x). 2: { unfold Rdiv. rewrite <- exp_Ropp, <- exp_plus. f_equal. ring. }
    replace (2 * (1 - q) / (1 + q) * (exp (- x) / exp x)) with (2 * (1 - q) * exp (- x) / ((1 + q) * exp x)) by (field; split; lra).
    unfold Rdiv. apply Rmult_le_compat_l; [lra|]. apply Rinv_le_contravar; [apply Rmult_lt_0_compat; lra|lra].
Qed.
Lemma relaxed_south x : relaxed (-1) x = -1.
Proof. unfold relaxed. pose proof (exp_pos (- x)). field. lra. Qed.
Lemma dl_expk k x : derivable_pt_lim (fun y => exp (k * y)) x (k * exp (k * x)).
Proof. apply (deriv_ext (fun y => comp exp (fun z => k * z) y)); [reflexivity|]. rewrite Rmult_comm. apply (derivable_pt_lim_comp (fun z => k * z) exp x k (exp (k * x))); [apply line_slope|apply derivable_pt_lim_exp]. Qed.
Lemma logistic q a T : (forall t, 0 <= t <= T -> -1 <= q t <= 1) -> (forall t, 0 <= t <= T -> derivable_pt_lim q t (a * (1 - q t * q t))) ->
  forall t, 0 <= t <= T -> q t = relaxed (q 0) (a * t).
Proof.
  intros HB HD t Ht. set (C := fun y => (1 + q 0) * exp (a * y) + (1 - q 0) * exp (- a * y)). set (S := fun y => (1 + q 0) * exp (a * y) - (1 - q 0) * exp (- a * y)).
  assert (DC : forall y, derivable_pt_lim C y (a * S y)).
  { intros y. replace (a * S y) with ((1 + q 0) * (a * exp (a * y)) + (1 - q 0) * (- a * exp (- a * y))) by (unfold S; ring). apply dl_plus; apply dl_scal, dl_expk. }
  assert (DS : forall y, derivable_pt_lim S y (a * C y)).
  { intros y. replace (a * C y) with ((1 + q 0) * (a * exp (a * y)) - (1 - q 0) * (- a * exp (- a * y))) by (unfold C; ring). apply dl_minus; apply dl_scal, dl_expk. }
  set (Q := fun y => q y * C y - S y). set (b := 2 * Rabs a).
  assert (DQ : forall y, 0 <= y <= T -> derivable_pt_lim Q y (- (a * q y) * Q y)).
  { intros y Hy. replace (- (a * q y) * Q y) with (a * (1 - q y * q y) * C y + q y * (a * S y) - a * C y) by (unfold Q; ring). apply dl_minus; [|apply DS]. apply (dl_mult q C); [apply HD; exact Hy|apply DC]. }
  set (g := fun y => Q y * Q y * exp (- b * y)).
  assert (DG : forall y, 0 <= y <= T -> derivable_pt_lim g y ((- (2 * (a * q y)) - b) * (Q y * Q y * exp (- b * y)))).
  { intros y Hy. replace ((- (2 * (a * q y)) - b) * (Q y * Q y * exp (- b * y))) with ((- (a * q y) * Q y * Q y + Q y * (- (a * q y) * Q y)) * exp (- b * y) + Q y * Q y * (- b * exp (- b * y))) by ring.
    apply (dl_mult (fun y => Q y * Q y) (fun y => exp (- b * y))); [apply (dl_mult Q Q); apply DQ; exact Hy|apply dl_expk]. }
  assert (Q0 : Q 0 = 0) by (unfold Q, C, S; rewrite !Rmult_0_r, exp_0; ring).
  assert (QT : Q t = 0).
  { destruct (Rle_lt_or_eq_dec 0 t (proj1 Ht)) as [P|E]; [|subst t; exact Q0].
    destruct (MVT_cor2 g (fun y => (- (2 * (a * q y)) - b) * (Q y * Q y * exp (- b * y))) 0 t P) as (c & E & I); [intros c I; apply DG; lra|].
    assert (G0 : g 0 = 0) by (unfold g; rewrite Q0; ring). rewrite G0 in E.
    assert (F : - (2 * (a * q c)) - b <= 0).
    { unfold b. pose proof (HB c ltac:(lra)) as B. pose proof (Rabs_mult a (q c)) as X. assert (Rabs (q c) <= 1) by (apply Rabs_le; lra). pose proof (Rabs_pos a).
      assert (Rabs a * Rabs (q c) <= Rabs a * 1) by (apply Rmult_le_compat_l; lra). pose proof (Rle_abs (- (a * q c))) as Y. rewrite Rabs_Ropp in Y. lra. }
    assert (W : 0 <= Q c * Q c * exp (- b * c)) by (apply Rmult_le_pos; [apply Rle_0_sqr|left; apply exp_pos]).
    set (k := - (2 * (a * q c)) - b) in *. set (W' := Q c * Q c * exp (- b * c)) in *. clearbody k W'. assert (kW : k * W' <= 0) by nra. assert (H : g t <= 0) by nra. unfold g in H. pose proof (exp_pos (- b * t)) as XP. pose proof (Rle_0_sqr (Q t)) as SQ. unfold Rsqr in SQ.
    assert (Q t * Q t = 0) by nra. nra. }
  pose proof (relaxed_bottom (q 0) (a * t) (HB 0 ltac:(lra))) as BT. unfold relaxed. unfold Q, C, S in QT. replace (- a * t) with (- (a * t)) in QT by ring.
  apply (Rmult_eq_reg_r ((1 + q 0) * exp (a * t) + (1 - q 0) * exp (- (a * t)))); [|lra]. unfold Rdiv. rewrite Rmult_assoc, Rinv_l by lra. lra.
Qed.
Lemma relax_solution ls T u du p l alpha h n t : solves ls T u du -> (forall i x, nth_error ls i = Some x -> Unit (u i 0)) -> nth_error ls p = Some l ->
  Unit n -> damped_in l alpha h n -> 0 <= t <= T -> Dot n (u p t) = relaxed (Dot n (u p 0)) (alpha * turn_rate alpha h * t).
Proof.
  intros HS HU Hp U HD Ht. apply (logistic (fun t => Dot n (u p t)) (alpha * turn_rate alpha h) T); [| |exact Ht].
  - intros y Hy. apply unit_dot_bounds; [exact U|]. exact (solution_unit ls T u du HS HU p l y Hp Hy).
  - intros y Hy. destruct (HS p l y Hp Hy) as [R1 (Dx & Dy & Dz)]. apply (damped_rhs l alpha h n) in R1; [|exact HD]. pose proof (solution_unit ls T u du HS HU p l y Hp Hy) as V.
    replace (alpha * turn_rate alpha h * (1 - Dot n (u p y) * Dot n (u p y))) with (cx n * cx (du p y) + cy n * cy (du p y) + cz n * cz (du p y)).
    + apply (deriv_ext (fun s => cx n * cx (u p s) + cy n * cy (u p s) + cz n * cz (u p s))); [intros s; destruct n, (u p s); reflexivity|]. repeat apply dl_plus; apply dl_scal; assumption.
    + transitivity (Dot n (du p y)); [destruct n, (du p y); reflexivity|]. change (Dot n (du p y) = alpha * turn_rate alpha h * (1 - Dot n (u p y) * Dot n (u p y))). rewrite R1, Dot_Scal, Dot_Plus, Dot_Scal, Dot_Cross_l, double_cross.
      unfold Unit in V, U. rewrite V. rewrite Minus_def. assert (X : forall k v, Dot n (CV (cx (Scal k v) - cx (Scal 1 n)) (cy (Scal k v) - cy (Scal 1 n)) (cz (Scal k v) - cz (Scal 1 n))) = k * Dot n v - Norm2 n).
      { intros k v. destruct n as [n1 n2 n3], v as [c1 c2 c3]. unfold Norm2, Dot, Scal; cbn [cx cy cz]. ring. } rewrite X, U. ring.
Qed.

(** A step of one radian with the damping 1/1000 takes the cosine -4/5 further from the field. *)
Lemma large_step : next_along (1 / 1000) 1 (- (4 / 5)) < - (4 / 5).
Proof.
  unfold next_along, classical. cbv zeta. set (v := CV 1 0 (- (4 / 5))). set (u := 1 - - (4 / 5) * - (4 / 5)).
  assert (K1 : slope (1 / 1000) u v = (CV (1 / 1250) (1 / 1) (9 / 25000))) by (unfold slope, u, v; cbn [cx cy cz]; apply vec_eq; field). rewrite K1.
  assert (K2 : slope (1 / 1000) u (Plus v (Scal (1 / 2) (CV (1 / 1250) (1 / 1) (9 / 25000)))) = (CV (-62399982509 / 125000000000) (100079991 / 100000000) (70357509 / 156250000000))) by (unfold slope, u, v, Plus, Scal; cbn [cx cy cz]; apply vec_eq; field). rewrite K2.
  assert (K3 : slope (1 / 1000) u (Plus v (Scal (1 / 2) (CV (-62399982509 / 125000000000) (100079991 / 100000000) (70357509 / 156250000000)))) = (CV (-39046859679072169023189919 / 78125000000000000000000000) (46925017329121132497581 / 62500000000000000000000) (457593963730862692478229 / 1562500000000000000000000000))) by (unfold slope, u, v, Plus, Scal; cbn [cx cy cz]; apply vec_eq; field). rewrite K3.
  assert (K4 : slope (1 / 1000) u (Plus v (Scal 1 (CV (-39046859679072169023189919 / 78125000000000000000000000) (46925017329121132497581 / 62500000000000000000000) (457593963730862692478229 / 1562500000000000000000000000)))) = (CV (-91601594677459676804829743691794516110404052606960226549 / 122070312500000000000000000000000000000000000000000000000) (48906310200216512364675741134797292937996778762335951 / 97656250000000000000000000000000000000000000000000000) (44708933305424234763677631877382963418375149165601549 / 152587890625000000000000000000000000000000000000000000000))) by (unfold slope, u, v, Plus, Scal; cbn [cx cy cz]; apply vec_eq; field). rewrite K4.
  match goal with |- context [Plus v ?w] => set (c := Plus v w) end.
  assert (E : c = (CV (397021534237549169997701759433205483889595947393039773451 / 732421875000000000000000000000000000000000000000000000000) (488671971775595051419616366134797292937996778762335951 / 585937500000000000000000000000000000000000000000000000) (-244031814531754255548537222755520039012193874950278132817 / 305175781250000000000000000000000000000000000000000000000))) by (unfold c, v; cbn [Sum fold_right]; unfold Plus, Scal, Zero; cbn [cx cy cz]; apply vec_eq; field).
  clearbody c. subst c. cbn [cx cy cz]. clear. unfold u. match goal with |- _ / sqrt ?x < _ => set (N2 := x) end.
  assert (B : 0 < N2 < (995611 / 1000000)) by (unfold N2; split; lra). clearbody N2.
  assert (S : 0 < sqrt N2) by (apply sqrt_lt_R0; lra).
  assert (T : sqrt N2 < (249451 / 250000)) by (rewrite <- (sqrt_square (249451 / 250000)) by lra; apply sqrt_lt_1_alt; lra).
  apply (Rmult_lt_reg_r (sqrt N2)); [exact S|]. unfold Rdiv at 1. rewrite Rmult_assoc, Rinv_l by lra. lra.
Qed.
(** ** Examples: a layer in the field 1/gamma0, turning by 1 / (1 + alpha^2) per unit of time *)
Definition ex_slow (alpha : R) (m : cvec) (id : string) : layer := set_l_damping alpha (set_l_mag m (ex_spin id)).
Definition ex_slow_pair (alpha : R) (m : cvec) : junction := ex_plain_pair (ex_slow alpha m "a") (ex_slow alpha m "b").
Lemma slow_free alpha m id : free_in (ex_slow alpha m id) alpha (CV 0 0 (/ gamma0)).
Proof. unfold free_in. repeat split; cbn; lra. Qed.
Lemma slow_damped alpha m id : damped_in (ex_slow alpha m id) alpha (/ gamma0) (CV 0 0 1).
Proof. apply (free_damped _ alpha (CV 0 0 (/ gamma0))); [apply slow_free|]. unfold Scal. apply vec_eq; ring. Qed.
Lemma slow_rate alpha : turn_rate alpha (/ gamma0) = / (1 + alpha * alpha).
Proof. unfold turn_rate. assert (0 < 1 + alpha * alpha) by nra. unfold gamma0. field. lra. Qed.
Lemma slow_runnable alpha m id : runnable (ex_slow alpha m id).
Proof.
  split; [|split; [reflexivity|discriminate]]. intros t v b top. apply plain_total; try reflexivity; try (cbn; lra). intros s. exists (FI (CV 0 0 (/ gamma0)) Zero Zero Zero 0 0 0 0 0 Zero Zero). repeat split.
Qed.
Lemma slow_runs alpha m e mode n : (0 < n < 4294967296)%Z -> exists j', runSimulation 1 (/ IZR n) (/ IZR n) e mode (ex_slow_pair alpha m) = (j', Ok tt).
Proof.
  intros Hn. assert (P : 1 <= IZR n < 4294967296) by (split; [apply IZR_le; lia|apply IZR_lt; lia]). pose proof (Rinv_0_lt_compat (IZR n) ltac:(lra)).
  assert (EN : INR (Z.to_nat n) = IZR n) by (rewrite INR_IZR_INZ, Z2Nat.id by lia; reflexivity).
  apply (P_RunEx.run_exists _ _ _ _ _ _ (Z.to_nat n) 1); [lra|discriminate|discriminate| |lia|].
  - assert (A : 1 / (/ IZR n) = IZR n) by (field; lra). assert (B : / IZR n / / IZR n = 1) by (field; lra).
    repeat split; try lra; rewrite ?A, ?B; try lra; left; rewrite ?EN; cbn [INR]; lra.
  - intros l Hl. assert (X : exists id, l = ex_slow alpha m id) by (destruct Hl as [<-|[<-|[]]]; eauto). destruct X as [id ->]. apply slow_runnable.
Qed.
