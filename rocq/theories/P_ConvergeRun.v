(** Accuracy of whole simulations, their logs, and the limit of small steps. *)
From Verif Require Import P_Alone P_RunProps P_RunEx P_Cache.
From Verif Require Export P_Converge P_Regular P_Tame.
From Coq Require Import Reals List Lra Lia Psatz.
Import ListNotations.
Open Scope R_scope.

Definition smooth_start (T M L : R) (ls : list layer) : Prop := forall l, In l ls -> regular T M L l /\ quiet l /\ Unit (l_mag l).
Lemma quiet_prepared ls : (forall l, In l ls -> quiet l) -> map prepared ls = ls.
Proof.
  intros H. rewrite <- (map_id ls) at 2. apply map_ext_in. intros l Hl. unfold prepared. destruct (H l Hl) as [_ Q]. destruct (Req_EM_T (l_nScale l) 0); [reflexivity|contradiction].
Qed.
Lemma steps_within T dt wf N w : 0 <= T -> 0 < dt -> step_counts T dt wf N w -> INR N * dt <= T < INR N * dt + dt.
Proof.
  intros HT HD (_ & _ & [[A B]|[[A B] _]] & _).
  - assert (E : T = T / dt * dt) by (field; lra). rewrite E. split; [apply Rmult_le_compat_r; lra|]. replace (INR N * dt + dt) with ((INR N + 1) * dt) by ring. apply Rmult_lt_compat_r; lra.
  - exfalso. assert (0 <= T / dt) by (unfold Rdiv; apply Rmult_le_pos; [lra|left; apply Rinv_0_lt_compat; lra]). lra.
Qed.
Lemma quiet_run mode N j j0 r used : (forall l, In l (j_layers j) -> quiet l) -> selects mode N j j0 r used -> j0 = j /\ (r = RunSingle -> length (j_layers j) = 1%nat).
Proof.
  intros HQ (_ & -> & _ & ->). split; [rewrite quiet_prepared by exact HQ; apply set_layers_id|].
  unfold runner_table, layerNo. destruct used; try discriminate; destruct (length (j_layers j)) as [|[|n]]; try discriminate; reflexivity.
Qed.
Lemma bound_mono M L t t' dt : 0 <= M -> 0 <= L -> 0 < dt -> 0 <= t <= t' -> error_bound M L t dt <= error_bound M L t' dt.
Proof.
  intros HM HL HD Ht. unfold error_bound. apply Rmult_le_compat_r; [lra|].
  assert (0 <= local_error M L). { unfold local_error, drift_change. assert (0 <= L * (1 + 3 * M)) by (apply Rmult_le_pos; lra). assert (0 <= M * M) by (apply Rmult_le_pos; lra). lra. }
  assert (exp (3 * L * t) <= exp (3 * L * t')).
  { assert (X : 3 * L * t <= 3 * L * t') by (apply Rmult_le_compat_l; lra). destruct X as [X| ->]; [left; apply exp_increasing; exact X|lra]. }
  pose proof (exp_pos (3 * L * t)). apply Rmult_le_compat; try lra; [apply Rmult_le_pos; lra|]. apply Rmult_le_compat_l; lra.
Qed.

Section Run.
Context (T dt wf : R) (e : bool) (mode : solver_mode) (j j' : junction) (M L : R) (u du : nat -> R -> cvec).
Context (HT : 0 <= T) (HD : 0 < dt) (HM : 0 <= M) (HL : 0 <= L) (Hdt : dt * M < 1).
Context (HA : smooth_start T M L (j_layers j)) (HS : solves (j_layers j) T u du) (H0 : starts (j_layers j) u).
Context (E : runSimulation T dt wf e mode j = (j', Ok tt)).

Lemma start_unit p l : nth_error (j_layers j) p = Some l -> Unit (u p 0).
Proof. intros Hp. rewrite (H0 p l Hp). apply (HA l (nth_error_In _ _ Hp)). Qed.
Lemma run_traj_error N w j0 r used s : step_counts T dt wf N w -> selects mode N j j0 r used -> s 0%nat = j0 -> trajectory r dt s N ->
  forall k p l, (k <= N)%nat -> nth_error (j_layers (s k)) p = Some l -> Unit (l_mag l) /\ Distance (l_mag l) (u p (INR k * dt)) <= error_bound M L (INR k * dt) dt.
Proof.
  intros HC HSel Hs HTr. destruct (quiet_run mode N j j0 r used (fun l Hl => proj1 (proj2 (HA l Hl))) HSel) as [-> HR].
  pose proof (steps_within T dt wf N w HT HD HC). rewrite <- Hs in HR, HA, HS, H0.
  intros k p l Hk Hp. apply (trajectory_error T M L r dt s N u du); try assumption. lra.
Qed.
Lemma layer_there r s N k p l : s 0%nat = j -> trajectory r dt s N -> (k <= N)%nat -> nth_error (j_layers (s k)) p = Some l -> exists l0, nth_error (j_layers j) p = Some l0.
Proof.
  intros Hs HTr Hk Hp. destruct (traj_static _ _ _ _ k HTr Hk) as (_ & LE & _). rewrite Hs in LE. exact (nth_error_same_length _ _ _ _ (eq_sym LE) Hp).
Qed.
Lemma run_final_error p l' : nth_error (j_layers j') p = Some l' -> Unit (l_mag l') /\
  (exists N, IntegerPart (T / dt) N /\ Distance (l_mag l') (u p (INR N * dt)) <= error_bound M L (INR N * dt) dt) /\
  Distance (l_mag l') (u p T) <= error_bound M L T dt + M * dt.
Proof.
  intros Hp. destruct (run_sound _ _ _ _ _ _ _ E) as (N & w & j0 & r & used & s & rows & HC & HSel & Hs & Htr & _ & _ & Ej & _).
  rewrite Ej in Hp. cbn [j_layers set_j_log] in Hp.
  destruct (quiet_run mode N j j0 r used (fun l Hl => proj1 (proj2 (HA l Hl))) HSel) as [-> _].
  destruct (run_traj_error N w j r used s HC HSel Hs Htr N p l' (le_n N) Hp) as [U D]. split; [exact U|].
  pose proof (steps_within T dt wf N w HT HD HC) as [A B]. split; [exists N; split; [apply HC|exact D]|].
  destruct (layer_there r s N N p l' Hs Htr (le_n N) Hp) as [l Hl].
  assert (T0 : 0 <= INR N * dt) by (apply Rmult_le_pos; [apply pos_INR|lra]).
  pose proof (solution_close (j_layers j) T M L u du (fun l Hl => proj1 (HA l Hl)) HS start_unit p l (INR N * dt) T Hl T0 A ltac:(lra)) as SC. rewrite Distance_sym in SC.
  pose proof (Distance_triangle (l_mag l') (u p (INR N * dt)) (u p T)). pose proof (bound_mono M L (INR N * dt) T dt HM HL HD ltac:(lra)).
  assert (M * (T - INR N * dt) <= M * dt) by (apply Rmult_le_compat_l; lra). lra.
Qed.
Lemma run_log_error : named j -> exists N w, step_counts T dt wf N w /\ j_logLength j' = (j_logLength j + rows_needed N w)%nat /\
  col "time" (j_log j') = (col "time" (j_log j) ++ map (fun k => INR (k * w) * dt) (seq 0 (rows_needed N w)))%list /\
  forall p l, nth_error (j_layers j) p = Some l -> exists vs, length vs = rows_needed N w /\
    col (colname (l_id l) "mx") (j_log j') = (col (colname (l_id l) "mx") (j_log j) ++ map cx vs)%list /\
    col (colname (l_id l) "my") (j_log j') = (col (colname (l_id l) "my") (j_log j) ++ map cy vs)%list /\
    col (colname (l_id l) "mz") (j_log j') = (col (colname (l_id l) "mz") (j_log j) ++ map cz vs)%list /\
    forall k v, nth_error vs k = Some v ->
      Distance v (u p (INR (k * w) * dt + dt)) <= error_bound M L (INR (k * w) * dt + dt) dt /\
      Distance v (u p (INR (k * w) * dt)) <= error_bound M L T dt + M * dt.
Proof.
  intros HN. destruct (run_grid _ _ _ _ _ _ _ HN E) as (N & w & HC & Hw & HLn & Htm & r & used & j0 & s & HSel & Hs & Htr & _ & HP).
  destruct (quiet_run mode N j j0 r used (fun l Hl => proj1 (proj2 (HA l Hl))) HSel) as [-> _].
  exists N, w. split; [exact HC|]. split; [exact HLn|]. split; [exact Htm|]. intros p l Hl. destruct (HP p l Hl) as (A & B & C).
  exists (map (fun k => nth p (mags (j_layers (s (S (k * w))))) Zero) (seq 0 (rows_needed N w))). split; [rewrite map_length, seq_length; reflexivity|].
  rewrite A, B, C, !map_map. split; [reflexivity|]. split; [reflexivity|]. split; [reflexivity|].
  intros k v Hv. assert (Hk : (k < rows_needed N w)%nat).
  { assert (X : (k < length (map (fun k => nth p (mags (j_layers (s (S (k * w))))) Zero) (seq 0 (rows_needed N w))))%nat) by (apply nth_error_Some; congruence). rewrite map_length, seq_length in X. exact X. }
  rewrite nth_error_map_seq in Hv by exact Hk. injection Hv as <-. pose proof (row_in_run N w k Hw Hk) as HkN.
  destruct (traj_static _ _ _ _ (S (k * w)) Htr HkN) as (_ & LE & _). rewrite Hs in LE.
  destruct (nth_error_same_length _ _ _ _ LE Hl) as [l1 Hl1].
  assert (EN : nth p (mags (j_layers (s (S (k * w))))) Zero = l_mag l1) by (apply nth_error_nth; unfold mags; rewrite nth_error_map, Hl1; reflexivity). rewrite EN.
  destruct (run_traj_error N w j r used s HC HSel Hs Htr (S (k * w)) p l1 HkN Hl1) as [_ D]. rewrite S_INR, Rmult_plus_distr_r, Rmult_1_l in D.
  split; [exact D|]. pose proof (steps_within T dt wf N w HT HD HC) as [Q _].
  set (t := INR (k * w) * dt) in *. assert (T0 : 0 <= t) by (apply Rmult_le_pos; [apply pos_INR|lra]).
  assert (T1 : t + dt <= T). { apply Rle_trans with (2 := Q). unfold t. replace (INR (k * w) * dt + dt) with (INR (S (k * w)) * dt) by (rewrite S_INR; ring). apply Rmult_le_compat_r; [lra|apply le_INR; exact HkN]. }
  pose proof (solution_close (j_layers j) T M L u du (fun l Hl => proj1 (HA l Hl)) HS start_unit p l t (t + dt) Hl T0 ltac:(lra) T1) as SC. replace (t + dt - t) with dt in SC by ring.
  pose proof (Distance_triangle (l_mag l1) (u p (t + dt)) (u p t)). pose proof (bound_mono M L (t + dt) T dt HM HL HD ltac:(lra)). lra.
Qed.
End Run.

(** ** The limit *)
Definition fine_start (T : R) (ls : list layer) : Prop := forall l, In l ls -> tame_layer T l /\ quiet l /\ Unit (l_mag l).
Lemma run_limit T j u du : 0 <= T -> fine_start T (j_layers j) -> solves (j_layers j) T u du -> starts (j_layers j) u ->
  forall eps, 0 < eps -> exists delta, 0 < delta /\ forall dt wf e mode j', 0 < dt < delta -> runSimulation T dt wf e mode j = (j', Ok tt) ->
    (forall p l', nth_error (j_layers j') p = Some l' -> Distance (l_mag l') (u p T) < eps) /\
    (named j -> exists N w, step_counts T dt wf N w /\ j_logLength j' = (j_logLength j + rows_needed N w)%nat /\
       col "time" (j_log j') = (col "time" (j_log j) ++ map (fun k => INR (k * w) * dt) (seq 0 (rows_needed N w)))%list /\
       forall p l, nth_error (j_layers j) p = Some l -> exists vs, length vs = rows_needed N w /\
         col (colname (l_id l) "mx") (j_log j') = (col (colname (l_id l) "mx") (j_log j) ++ map cx vs)%list /\
         col (colname (l_id l) "my") (j_log j') = (col (colname (l_id l) "my") (j_log j) ++ map cy vs)%list /\
         col (colname (l_id l) "mz") (j_log j') = (col (colname (l_id l) "mz") (j_log j) ++ map cz vs)%list /\
         forall k v, nth_error vs k = Some v -> Distance v (u p (INR (k * w) * dt)) < eps).
Proof.
  intros HT HA HS H0 eps He. destruct (tame_layers T (j_layers j) (fun l Hl => proj1 (HA l Hl))) as (M & L & HM & HL & HR).
  set (K := local_error M L * T * exp (3 * L * T) + M).
  assert (HK : 0 <= K). { unfold K, local_error, drift_change. assert (0 <= L * (1 + 3 * M)) by (apply Rmult_le_pos; lra). assert (0 <= M * M) by (apply Rmult_le_pos; lra).
    pose proof (exp_pos (3 * L * T)). assert (0 <= (4 * (L * (1 + 3 * M)) + M * M) * T * exp (3 * L * T)) by (repeat apply Rmult_le_pos; lra). lra. }
  exists (Rmin (/ (M + 1)) (eps / (K + 1))). assert (I1 : 0 < / (M + 1)) by (apply Rinv_0_lt_compat; lra). assert (I2 : 0 < eps / (K + 1)) by (apply Rdiv_lt_0_compat; lra).
  split; [apply Rmin_glb_lt; assumption|]. intros dt wf e mode j' [D1 D2] E.
  pose proof (Rmin_l (/ (M + 1)) (eps / (K + 1))). pose proof (Rmin_r (/ (M + 1)) (eps / (K + 1))).
  assert (Hdt : dt * M < 1).
  { assert (dt * (M + 1) < / (M + 1) * (M + 1)) by (apply Rmult_lt_compat_r; lra). rewrite Rinv_l in * by lra. lra. }
  assert (SM : error_bound M L T dt + M * dt < eps).
  { replace (error_bound M L T dt + M * dt) with (K * dt) by (unfold K, error_bound; ring).
    assert (dt * (K + 1) < eps / (K + 1) * (K + 1)) by (apply Rmult_lt_compat_r; lra). replace (eps / (K + 1) * (K + 1)) with eps in * by (field; lra). lra. }
  assert (HSM : smooth_start T M L (j_layers j)) by (intros l Hl; split; [apply HR; exact Hl|apply (HA l Hl)]).
  split.
  - intros p l' Hp. destruct (run_final_error T dt wf e mode j j' M L u du HT D1 HM HL Hdt HSM HS H0 E p l' Hp) as (_ & _ & X). lra.
  - intros HN. destruct (run_log_error T dt wf e mode j j' M L u du HT D1 HM HL Hdt HSM HS H0 E HN) as (N & w & A & B & C & D).
    exists N, w. split; [exact A|]. split; [exact B|]. split; [exact C|]. intros p l Hl. destruct (D p l Hl) as (vs & V1 & V2 & V3 & V4 & V5).
    exists vs. repeat (split; [assumption|]). intros k v Hv. destruct (V5 k v Hv) as [_ X]. lra.
Qed.

(** ** Two precessing layers *)
Definition ex_circle (p : nat) (t : R) : cvec := CV (cos t) (sin t) 0.
Definition ex_circle' (p : nat) (t : R) : cvec := CV (- sin t) (cos t) 0.
Definition ex_duo : junction := ex_plain_pair (ex_spin "a") (ex_spin "b").
Lemma duo_solves T : solves (j_layers ex_duo) T ex_circle ex_circle'.
Proof.
  intros p l t Hp _. split.
  - assert (X : exists id, l = ex_spin id). { destruct p as [|[|p]]; cbn in Hp; [injection Hp as <-; eauto|injection Hp as <-; eauto|destruct p; discriminate]. }
    destruct X as [id ->]. apply spin_rhs.
  - split; [|split]; cbn [ex_circle ex_circle' cx cy cz]; [apply derivable_pt_lim_cos|apply derivable_pt_lim_sin|apply derivable_pt_lim_const].
Qed.
Lemma duo_starts : starts (j_layers ex_duo) ex_circle.
Proof.
  intros p l Hp. assert (X : exists id, l = ex_spin id). { destruct p as [|[|p]]; cbn in Hp; [injection Hp as <-; eauto|injection Hp as <-; eauto|destruct p; discriminate]. }
  destruct X as [id ->]. unfold ex_circle. rewrite cos_0, sin_0. reflexivity.
Qed.
Lemma spin_tame T id : tame_layer T (ex_spin id).
Proof. unfold tame_layer, tame_axial. repeat split; try discriminate; apply smooth_tame; left; reflexivity. Qed.
Lemma duo_fine T : fine_start T (j_layers ex_duo).
Proof.
  intros l Hl. assert (X : exists id, l = ex_spin id) by (destruct Hl as [<-|[<-|[]]]; eauto). destruct X as [id ->].
  split; [apply spin_tame|]. split; [split; reflexivity|]. unfold Unit, Norm2, Dot. cbn. ring.
Qed.
Lemma spin_regular T id : regular T 2 2 (ex_spin id).
Proof.
  assert (G : forall v, Norm (CV (- cy v) (cx v) 0) <= Norm v).
  { intros v. unfold Norm. apply sqrt_le_1_alt. destruct v as [x y z]. unfold Norm2, Dot. cbn. nra. }
  intros t v b w d Ht Hv Hb Hw D. rewrite (rhs_unique _ _ _ _ _ _ _ D (spin_rhs id t v b w)). split; [pose proof (G v); lra|].
  intros t' v' b' w' d' Ht' Hv' Hb' Hw' D'. rewrite (rhs_unique _ _ _ _ _ _ _ D' (spin_rhs id t' v' b' w')).
  assert (E : Distance (CV (- cy v) (cx v) 0) (CV (- cy v') (cx v') 0) <= Distance v v').
  { unfold Distance. replace (Minus (CV (- cy v) (cx v) 0) (CV (- cy v') (cx v') 0)) with (CV (- cy (Minus v v')) (cx (Minus v v')) 0); [apply G|].
    rewrite !Minus_def. cbn [cx cy cz]. apply vec_eq; ring. }
  pose proof (Rabs_pos (t - t')). pose proof (Distance_nonneg v v'). pose proof (Distance_nonneg b b'). pose proof (Distance_nonneg w w'). lra.
Qed.
Lemma duo_smooth T : smooth_start T 2 2 (j_layers ex_duo).
Proof.
  intros l Hl. assert (X : exists id, l = ex_spin id) by (destruct Hl as [<-|[<-|[]]]; eauto). destruct X as [id ->].
  split; [apply spin_regular|]. split; [split; reflexivity|]. unfold Unit, Norm2, Dot. cbn. ring.
Qed.
Lemma duo_runs e mode n : (0 < n < 4294967296)%Z -> exists j', runSimulation 1 (/ IZR n) (/ IZR n) e mode ex_duo = (j', Ok tt).
Proof.
  intros Hn. assert (P : 1 <= IZR n < 4294967296) by (split; [apply IZR_le; lia|apply IZR_lt; lia]). pose proof (Rinv_0_lt_compat (IZR n) ltac:(lra)).
  assert (EN : INR (Z.to_nat n) = IZR n) by (rewrite INR_IZR_INZ, Z2Nat.id by lia; reflexivity).
  apply (run_exists _ _ _ _ _ _ (Z.to_nat n) 1); [lra|discriminate|discriminate| |lia|].
  - assert (A : 1 / (/ IZR n) = IZR n) by (field; lra). assert (B : / IZR n / / IZR n = 1) by (field; lra).
    repeat split; try lra; rewrite ?A, ?B; try lra; left; rewrite ?EN; cbn [INR]; lra.
  - intros l Hl. assert (X : exists id, l = ex_spin id) by (destruct Hl as [<-|[<-|[]]]; eauto). destruct X as [id ->]. apply spin_runnable.
Qed.
Lemma duo_named : named ex_duo.
Proof.
  split; [|split].
  - cbn. discriminate.
  - discriminate.
  - cbn. constructor; [|constructor; [intros []|constructor]]. intros [X|[]]. discriminate.
Qed.
