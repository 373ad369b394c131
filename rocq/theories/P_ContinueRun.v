(** Runs carried on by a second call (C104). *)
From Coq Require Import Classical_Prop.
From Verif Require Import P_Continue P_Reach P_RunEx.
From Verif Require Export P_Continue.
Open Scope R_scope.
Open Scope st_scope.

(** ** A step depends on the layers only *)
Lemma step_layers r t dt a b a' b' u v : j_layers a = j_layers b -> run_runner r t dt a = (a', u) -> run_runner r t dt b = (b', v) ->
  j_layers a' = j_layers b' /\ u = v.
Proof.
  intros E. destruct r; cbn [run_runner].
  - unfold runSingleLayerSolver. rewrite E. destruct (j_layers b) as [|l ls] eqn:EB.
    + intros X Y. injection X as <- <-. injection Y as <- <-. rewrite E, EB. auto.
    + destruct (rk4_step t dt vnull vnull l) as [l' x]. intros X Y. injection X as <- <-. injection Y as <- <-. auto.
  - unfold runMultiLayerSolver. rewrite E. destruct (multi_loop _ _ _) as [ls x]. intros X Y. injection X as <- <-. injection Y as <- <-. auto.
  - unfold heunSolverStep. rewrite E. destruct (heun_pass1 _ _ _ _) as [ls [hs|x]].
    + destruct (heun_pass2 _ _ _ _ _) as [ls' x]. intros X Y. injection X as <- <-. injection Y as <- <-. auto.
    + intros X Y. injection X as <- <-. injection Y as <- <-. auto.
  - unfold eulerHeunSolverStep. rewrite E. destruct (eulerHeun_pass _ _ _ _) as [ls [hs|x]]; intros X Y; injection X as <- <-; injection Y as <- <-; auto.
Qed.
Lemma traj_layers r dt s s' N : j_layers (s 0%nat) = j_layers (s' 0%nat) -> trajectory r dt s N -> trajectory r dt s' N -> forall k, (k <= N)%nat -> j_layers (s k) = j_layers (s' k).
Proof.
  intros H0 A B. induction k as [|k IH]; intros Hk; [exact H0|]. exact (proj1 (step_layers _ _ _ _ _ _ _ _ _ (IH ltac:(lia)) (A k ltac:(lia)) (B k ltac:(lia)))).
Qed.
Lemma traj_unchanging r dt s N : all_unchanging (j_layers (s 0%nat)) -> trajectory r dt s N -> forall k, (k <= N)%nat -> all_unchanging (j_layers (s k)).
Proof.
  intros H A k Hk l Hl. destruct (traj_static _ _ _ _ k A Hk) as (_ & L & P). apply In_nth_error in Hl. destruct Hl as [p Hp].
  destruct (nth_error_same_length _ _ _ _ (eq_sym L) Hp) as [l0 Hl0]. apply (unchanging_static l0 l); [exact (P p l0 l Hl0 Hp)|]. apply H. exact (nth_error_In _ _ Hl0).
Qed.
(** The second part of a long trajectory is a trajectory of its own. *)
Lemma traj_second r dt s s' N1 N2 : all_unchanging (j_layers (s 0%nat)) -> trajectory r dt s (N1 + N2) -> trajectory r dt s' N2 ->
  j_layers (s' 0%nat) = j_layers (s N1) -> forall k, (k <= N2)%nat -> j_layers (s' k) = j_layers (s (N1 + k)%nat).
Proof.
  intros HU A B H0. induction k as [|k IH]; intros Hk; [rewrite Nat.add_0_r; exact H0|].
  assert (AU : all_unchanging (j_layers (s (N1 + k)%nat))) by (apply (traj_unchanging r dt s (N1 + N2) HU A); lia).
  assert (A1 := A (N1 + k)%nat ltac:(lia)). rewrite (step_timeless _ _ (INR k * dt) _ _ AU) in A1. rewrite Nat.add_succ_r.
  exact (proj1 (step_layers _ _ _ _ _ _ _ _ _ (IH ltac:(lia)) (B k ltac:(lia)) A1)).
Qed.
Lemma resumable_prepared ls : (forall l, In l ls -> resumable l) -> map prepared ls = ls.
Proof.
  intros H. rewrite <- (map_id ls) at 2. apply map_ext_in. intros l Hl. unfold prepared. destruct (H l Hl) as [_ Q]. destruct (Req_EM_T (l_nScale l) 0); [reflexivity|contradiction].
Qed.
Lemma resumable_start mode N j j0 r used : (forall l, In l (j_layers j) -> resumable l) -> selects mode N j j0 r used -> j0 = j.
Proof. intros H (_ & -> & _). rewrite (resumable_prepared _ H). apply set_layers_id. Qed.
Lemma static_noisy l l' : static l l' -> noisy l -> noisy l'.
Proof. intros (m & c & rp & bf & ->) H. exact H. Qed.
Lemma static_resumable l l' : static l l' -> resumable l -> resumable l'.
Proof. intros (m & c & rp & bf & ->) H. exact H. Qed.
Lemma static_solver a b : stepwise (fun _ l l' => static l l') a b -> same_solver a b.
Proof.
  intros (_ & L & P). split; [|unfold layerNo; rewrite L; tauto]. split; intros (l & Hl & Hn); apply In_nth_error in Hl; destruct Hl as [p Hp].
  - destruct (nth_error_same_length _ _ _ _ L Hp) as [l' Hl']. exists l'. split; [exact (nth_error_In _ _ Hl')|]. exact (static_noisy _ _ (P p l l' Hp Hl') Hn).
  - destruct (nth_error_same_length _ _ _ _ (eq_sym L) Hp) as [l' Hl']. exists l'. split; [exact (nth_error_In _ _ Hl')|]. exact (static_noisy _ _ (static_sym _ _ (P p l' l Hl' Hp)) Hn).
Qed.
Lemma stepwise_layers a b b' : j_layers b' = j_layers b -> stepwise (fun _ l l' => static l l') a b -> same_solver a b' /\ ((forall l, In l (j_layers a) -> resumable l) -> forall l, In l (j_layers b') -> resumable l).
Proof.
  intros E HS. split.
  - pose proof (static_solver a b HS) as [X Y]. unfold same_solver, layerNo in *. rewrite E. auto.
  - intros H l Hl. rewrite E in Hl. apply In_nth_error in Hl. destruct Hl as [p Hp]. destruct HS as (_ & L & P).
    destruct (nth_error_same_length _ _ _ _ (eq_sym L) Hp) as [l0 Hl0]. apply (static_resumable l0); [exact (P p l0 l Hl0 Hp)|]. apply H. exact (nth_error_In _ _ Hl0).
Qed.
Section Two.
Context (T1 T2 T dt wf : R) (e : bool) (mode : solver_mode) (N1 N2 w : nat) (j j1 j2 j3 : junction).
Context (HR : forall l, In l (j_layers j) -> resumable l).
Context (C1 : step_counts T1 dt wf N1 w) (C2 : step_counts T2 dt wf N2 w) (C3 : step_counts T dt wf (N1 + N2) w).
Lemma states s1 s2 s3 a1 a2 a3 r1 r2 r3 u1 u2 u3 : j_layers j1 = j_layers (s1 N1) ->
  selects mode N1 j a1 r1 u1 -> selects mode N2 j1 a2 r2 u2 -> selects mode (N1 + N2) j a3 r3 u3 ->
  s1 0%nat = a1 -> s2 0%nat = a2 -> s3 0%nat = a3 -> trajectory r1 dt s1 N1 -> trajectory r2 dt s2 N2 -> trajectory r3 dt s3 (N1 + N2) ->
  (forall k, (k <= N1)%nat -> j_layers (s1 k) = j_layers (s3 k)) /\ (forall k, (k <= N2)%nat -> j_layers (s2 k) = j_layers (s3 (N1 + k)%nat)) /\ s1 0%nat = j /\ s2 0%nat = j1 /\ s3 0%nat = j.
Proof.
  intros EL S1 S2 S3 I1 I2 I3 A1 A2 A3.
  pose proof (resumable_start _ _ _ _ _ _ HR S1) as X1. pose proof (resumable_start _ _ _ _ _ _ HR S3) as X3.
  pose proof (traj_static _ _ _ _ N1 A1 (le_n _)) as ST. rewrite I1, X1 in ST. destruct (stepwise_layers j (s1 N1) j1 EL ST) as [SS RR]. specialize (RR HR).
  pose proof (resumable_start _ _ _ _ _ _ RR S2) as X2.
  assert (SJ : same_solver j j) by (split; tauto).
  assert (E13 : r1 = r3) by (destruct S1 as (_ & _ & M1 & ->), S3 as (_ & _ & M3 & ->); f_equal; destruct (classic (exists l, In l (j_layers j) /\ noisy l)) as [Y|Y]; [rewrite (proj1 M1 Y), (proj1 M3 Y)|rewrite (proj2 M1 Y), (proj2 M3 Y)]; reflexivity).
  assert (E12 : r1 = r2).
  { destruct S1 as (_ & _ & M1 & ->), S2 as (_ & _ & M2 & ->), SS as [SN SL]. rewrite <- (table_same _ _ u2 SL). f_equal.
    destruct (classic (exists l, In l (j_layers j) /\ noisy l)) as [Y|Y]; [rewrite (proj1 M1 Y), (proj1 M2 (proj1 SN Y))|rewrite (proj2 M1 Y), (proj2 M2 (fun Z => Y (proj2 SN Z)))]; reflexivity. }
  subst r2 r3. assert (F : forall k, (k <= N1)%nat -> j_layers (s1 k) = j_layers (s3 k)).
  { apply (traj_layers r1 dt s1 s3 N1); [congruence|exact A1|]. intros k Hk. apply A3. lia. }
  split; [exact F|]. split; [|repeat split; congruence].
  apply (traj_second r1 dt s3 s2 N1 N2); [|exact A3|exact A2|].
  - rewrite I3, X3. intros l Hl. apply (HR l Hl).
  - rewrite I2, X2, EL. apply F. lia.
Qed.
Context (E1 : runSimulation T1 dt wf e mode j = (j1, Ok tt)) (E2 : runSimulation T2 dt wf e mode j1 = (j2, Ok tt)) (E3 : runSimulation T dt wf e mode j = (j3, Ok tt)).
Lemma two_layers : j_layers j2 = j_layers j3.
Proof.
  destruct (run_sound _ _ _ _ _ _ _ E1) as (n1 & w1 & a1 & r1 & u1 & s1 & rows1 & D1 & S1 & I1 & A1 & _ & _ & J1 & _).
  destruct (run_sound _ _ _ _ _ _ _ E2) as (n2 & w2 & a2 & r2 & u2 & s2 & rows2 & D2 & S2 & I2 & A2 & _ & _ & J2 & _).
  destruct (run_sound _ _ _ _ _ _ _ E3) as (n3 & w3 & a3 & r3 & u3 & s3 & rows3 & D3 & S3 & I3 & A3 & _ & _ & J3 & _).
  destruct (counts_unique _ _ _ _ _ _ _ D1 C1) as [-> ->]. destruct (counts_unique _ _ _ _ _ _ _ D2 C2) as [-> ->]. destruct (counts_unique _ _ _ _ _ _ _ D3 C3) as [-> ->].
  assert (EL : j_layers j1 = j_layers (s1 N1)) by (rewrite J1; reflexivity).
  destruct (states s1 s2 s3 a1 a2 a3 r1 r2 r3 u1 u2 u3 EL S1 S2 S3 I1 I2 I3 A1 A2 A3) as (_ & F & _).
  assert (L2 : j_layers j2 = j_layers (s2 N2)) by (rewrite J2; reflexivity). assert (L3 : j_layers j3 = j_layers (s3 (N1 + N2)%nat)) by (rewrite J3; reflexivity).
  rewrite L2, L3. apply F. lia.
Qed.
Lemma two_log q : named j -> (w > 0)%nat -> N1 = (q * w)%nat ->
  col "time" (j_log j2) = (col "time" (j_log j) ++ map (fun k => INR (k * w) * dt) (seq 0 (rows_needed N1 w)) ++ map (fun k => INR (k * w) * dt) (seq 0 (rows_needed N2 w)))%list /\
  j_logLength j2 = j_logLength j3 /\
  forall p l, nth_error (j_layers j) p = Some l -> forall U, us U = 0%nat -> col (colname (l_id l) U) (j_log j2) = col (colname (l_id l) U) (j_log j3).
Proof.
  intros HN Hw Hq.
  destruct (run_columns _ _ _ _ _ _ _ HN E1) as (n1 & w1 & a1 & r1 & u1 & s1 & D1 & S1 & I1 & A1 & W1 & J1 & M1 & P1).
  destruct (run_columns _ _ _ _ _ _ _ HN E3) as (n3 & w3 & a3 & r3 & u3 & s3 & D3 & S3 & I3 & A3 & W3 & J3 & M3 & P3).
  destruct (counts_unique _ _ _ _ _ _ _ D1 C1) as [-> ->]. destruct (counts_unique _ _ _ _ _ _ _ D3 C3) as [-> ->].
  assert (EL : j_layers j1 = j_layers (s1 N1)) by (rewrite J1; reflexivity).
  pose proof (traj_static _ _ _ _ N1 A1 (le_n _)) as ST. rewrite I1, (resumable_start _ _ _ _ _ _ HR S1) in ST.
  assert (HN1 : named j1). { pose proof (named_shape _ _ (stepwise_shape _ _ ST) HN) as X. rewrite J1. exact X. }
  destruct (run_columns _ _ _ _ _ _ _ HN1 E2) as (n2 & w2 & a2 & r2 & u2 & s2 & D2 & S2 & I2 & A2 & W2 & J2 & M2 & P2).
  destruct (counts_unique _ _ _ _ _ _ _ D2 C2) as [-> ->].
  destruct (states s1 s2 s3 a1 a2 a3 r1 r2 r3 u1 u2 u3 EL S1 S2 S3 I1 I2 I3 A1 A2 A3) as (F1 & F2 & X1 & X2 & X3).
  assert (R1 : rows_needed N1 w = q). { unfold rows_needed. rewrite Hq. replace (q * w + w - 1)%nat with (q * w + (w - 1))%nat by lia. rewrite Nat.div_add_l, Nat.div_small by lia. lia. }
  assert (R3 : rows_needed (N1 + N2) w = (q + rows_needed N2 w)%nat). { unfold rows_needed. rewrite Hq. replace (q * w + N2 + w - 1)%nat with (q * w + (N2 + w - 1))%nat by lia. rewrite Nat.div_add_l by lia. reflexivity. }
  split; [rewrite M2, M1, app_assoc; reflexivity|]. split.
  { rewrite J2, J3. cbn [j_logLength set_j_log]. rewrite J1. cbn [j_logLength set_j_log]. rewrite R1, R3. lia. }
  intros p l Hl U HU. destruct ST as (_ & LL & SP). destruct (nth_error_same_length _ _ _ _ LL Hl) as [l1 Hl1].
  assert (ID : l_id l1 = l_id l) by (apply (static_fields l l1), (SP p l l1 Hl Hl1)). rewrite <- EL in Hl1.
  rewrite (P3 p l Hl U HU). rewrite <- ID, (P2 p l1 Hl1 U HU), ID, (P1 p l Hl U HU), <- app_assoc. f_equal.
  rewrite R3, seq_app, flat_map_app, R1. cbn [plus]. f_equal.
  - rewrite !flat_map_concat_map. f_equal. apply map_ext_in. intros k Hk. apply in_seq in Hk. unfold layer_at. rewrite F1; [reflexivity|]. rewrite Hq. nia.
  - rewrite <- (map_id (seq 0 (rows_needed N2 w))) at 1.
    assert (SH : seq q (rows_needed N2 w) = map (fun k => (q + k)%nat) (seq 0 (rows_needed N2 w))).
    { apply nth_ext with (d := 0%nat) (d' := (q + 0)%nat); rewrite ?map_length, ?seq_length; [reflexivity|]. intros n Hn. rewrite (map_nth (fun k => (q + k)%nat)), !seq_nth by lia. lia. }
    rewrite SH. rewrite !flat_map_concat_map, !map_map. f_equal. apply map_ext_in. intros k Hk. apply in_seq in Hk.
    assert (HK : (S (k * w) <= N2)%nat) by (apply row_in_run; [right; exact Hw|lia]).
    unfold layer_at. rewrite F2 by exact HK. replace (N1 + S (k * w))%nat with (S ((q + k) * w)) by (rewrite Hq; lia). f_equal. f_equal.
    apply nth_indep. destruct (traj_static _ _ _ _ (S ((q + k) * w)) A3 ltac:(rewrite Hq in *; nia)) as (_ & L3 & _). rewrite L3, X3. apply nth_error_Some. congruence.
Qed.
End Two.
