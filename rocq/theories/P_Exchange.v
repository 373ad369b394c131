(** Two layers with interlayer exchange only: what the equations conserve and what the solver does. *)
From Verif Require Import P_PrecessRun P_Alone P_RunProps P_RunEx P_PimmProps P_Converge P_ConvergeRun.
From Verif Require Export S_Exchange.
From Coq Require Import Reals List Lra Lia Psatz.
Import ListNotations.
Open Scope R_scope.

(** ** The equations *)
Lemma pair_conserves a b h1 h2 T u du : exchange_pair a b h1 h2 -> solves [a; b] T u du ->
  forall t, 0 <= t <= T -> Dot (u 0%nat t) (u 1%nat t) = Dot (u 0%nat 0) (u 1%nat 0).
Proof.
  intros (_ & _ & FA & FB) HS t Ht. destruct (Rle_lt_or_eq_dec 0 t (proj1 Ht)) as [P|E]; [|subst t; reflexivity].
  set (f := fun s => cx (u 0%nat s) * cx (u 1%nat s) + cy (u 0%nat s) * cy (u 1%nat s) + cz (u 0%nat s) * cz (u 1%nat s)).
  assert (EF : forall s, Dot (u 0%nat s) (u 1%nat s) = f s) by (intros s; unfold f; destruct (u 0%nat s), (u 1%nat s); reflexivity).
  rewrite !EF.
  destruct (MVT_cor2 f (fun s => cx (du 0%nat s) * cx (u 1%nat s) + cx (u 0%nat s) * cx (du 1%nat s) + (cy (du 0%nat s) * cy (u 1%nat s) + cy (u 0%nat s) * cy (du 1%nat s)) + (cz (du 0%nat s) * cz (u 1%nat s) + cz (u 0%nat s) * cz (du 1%nat s))) 0 t P) as (c & E & I).
  - intros c I. destruct (HS 0%nat a c eq_refl ltac:(lra)) as [_ (X0 & Y0 & Z0)]. destruct (HS 1%nat b c eq_refl ltac:(lra)) as [_ (X1 & Y1 & Z1)].
    unfold f. apply (derivable_pt_lim_plus (fun s => cx (u 0%nat s) * cx (u 1%nat s) + cy (u 0%nat s) * cy (u 1%nat s))); [apply (derivable_pt_lim_plus (fun s => cx (u 0%nat s) * cx (u 1%nat s)))|];
    match goal with |- derivable_pt_lim (fun s => ?g s * ?k s) _ _ => idtac | _ => idtac end; apply (derivable_pt_lim_mult (fun s => _ (u 0%nat s)) (fun s => _ (u 1%nat s))); assumption.
  - destruct (HS 0%nat a c eq_refl ltac:(lra)) as [R0 _]. destruct (HS 1%nat b c eq_refl ltac:(lra)) as [R1 _].
    cbn in R0, R1. apply (feels_rhs _ _ _ _ _ _ _ (FA _)) in R0. apply (feels_rhs _ _ _ _ _ _ _ (FB _)) in R1. rewrite R0, R1 in E.
    revert E. destruct (u 0%nat c) as [x1 x2 x3], (u 1%nat c) as [y1 y2 y3]. unfold Scal, Cross. cbn [cx cy cz]. intros E. nra.
Qed.

(** ** One step *)
Lemma pair_cosine q a1 b1 a2 b2 m1 m2 : Unit m1 -> Unit m2 -> Dot m1 m2 = q ->
  Dot (spiral m2 a1 b1 m1) (spiral m1 a2 b2 m2) = q - (1 - q * q) * (q * (1 - a1) * (1 - a2) + b1 * b2) /\
  Norm2 (spiral m2 a1 b1 m1) = 1 - (1 - q * q) * (1 - (a1 * a1 + b1 * b1)) /\
  Norm2 (spiral m1 a2 b2 m2) = 1 - (1 - q * q) * (1 - (a2 * a2 + b2 * b2)).
Proof.
  intros U1 U2 Q. assert (Q' : Dot m2 m1 = q) by (rewrite Dot_comm; exact Q).
  split; [|split]; [|rewrite spiral_norm, Q' by assumption; unfold Unit in U1; rewrite U1; ring|rewrite spiral_norm, Q by assumption; unfold Unit in U2; rewrite U2; ring].
  unfold spiral. rewrite Q, Q', !Minus_def.
  assert (L := Lagrange m1 m2). unfold Unit in U1, U2. rewrite U1, U2, Q in L.
  destruct m1 as [x1 x2 x3], m2 as [y1 y2 y3]. unfold Norm2, Dot, Cross, Scal, Plus in *. cbn [cx cy cz] in *.
  match goal with |- ?lhs = _ => replace lhs with (q * q * (x1 * y1 + x2 * y2 + x3 * y3) + q * a2 * ((y1 * y1 + y2 * y2 + y3 * y3) - q * (x1 * y1 + x2 * y2 + x3 * y3)) + a1 * q * ((x1 * x1 + x2 * x2 + x3 * x3) - q * (x1 * y1 + x2 * y2 + x3 * y3))
    + a1 * a2 * ((x1 * y1 + x2 * y2 + x3 * y3) - q * (x1 * x1 + x2 * x2 + x3 * x3) - q * (y1 * y1 + y2 * y2 + y3 * y3) + q * q * (x1 * y1 + x2 * y2 + x3 * y3))
    - b1 * b2 * ((x2 * y3 - x3 * y2) * (x2 * y3 - x3 * y2) + (x3 * y1 - x1 * y3) * (x3 * y1 - x1 * y3) + (x1 * y2 - x2 * y1) * (x1 * y2 - x2 * y1))) by ring end.
  rewrite U1, U2, Q. assert (L' : (x2 * y3 - x3 * y2) * (x2 * y3 - x3 * y2) + (x3 * y1 - x1 * y3) * (x3 * y1 - x1 * y3) + (x1 * y2 - x2 * y1) * (x1 * y2 - x2 * y1) = 1 - q * q) by lra.
  rewrite L'. ring.
Qed.
Lemma pair_norm_pos q g : -1 <= q <= 1 -> 0 < g -> 0 < 1 - (1 - q * q) * (1 - g).
Proof. intros Hq Hg. assert (0 <= q * q <= 1) by nra. destruct (Req_dec (q * q) 0) as [E|E]; [rewrite E; lra|]. assert (0 <= (1 - q * q) * g) by (apply Rmult_le_pos; lra). lra. Qed.
Lemma pair_step t dt j j' a b a' b' h1 h2 : exchange_pair a b h1 h2 -> Unit (l_mag a) -> Unit (l_mag b) -> j_layers j = [a; b] -> j_layers j' = [a'; b'] ->
  runMultiLayerSolver t dt j = (j', Ok tt) ->
  let z1 := gamma0 * h1 * dt in let z2 := gamma0 * h2 * dt in
  Unit (l_mag a') /\ Unit (l_mag b') /\
  Dot (l_mag a') (l_mag b') = next_cosine (Dot (l_mag a) (l_mag b)) (fst (gain RunMulti z1)) (snd (gain RunMulti z1)) (fst (gain RunMulti z2)) (snd (gain RunMulti z2)).
Proof.
  intros (_ & _ & FA & FB) UA UB EJ EJ' E z1 z2. apply multi_sound in E. destruct E as (_ & _ & S). rewrite EJ, EJ' in S.
  destruct (S 0%nat a a' eq_refl eq_refl) as [SA _]. destruct (S 1%nat b b' eq_refl eq_refl) as [SB _]. cbn in SA, SB.
  assert (RA : forall s v d, rhs a s v Zero (l_mag b) d <-> d = Scal (gamma0 * h1) (Cross (l_mag b) v)) by (intros s v d; rewrite (feels_rhs a Zero (l_mag b) _ s v d (FA _)), field_axis; reflexivity).
  assert (RB : forall s v d, rhs b s v (l_mag a) Zero d <-> d = Scal (gamma0 * h2) (Cross (l_mag a) v)) by (intros s v d; rewrite (feels_rhs b (l_mag a) Zero _ s v d (FB _)), field_axis; reflexivity).
  apply (rk4_spiral (l_mag b) (gamma0 * h1) dt (l_mag a) _ t (l_mag a') UB RA) in SA. apply (rk4_spiral (l_mag a) (gamma0 * h2) dt (l_mag b) _ t (l_mag b') UA RB) in SB.
  fold z1 in SA. fold z2 in SB. pose proof (gain_norm RunMulti z1) as G1. pose proof (gain_norm RunMulti z2) as G2.
  set (a1 := fst (gain RunMulti z1)) in *. set (b1 := snd (gain RunMulti z1)) in *. set (a2 := fst (gain RunMulti z2)) in *. set (b2 := snd (gain RunMulti z2)) in *.
  set (q := Dot (l_mag a) (l_mag b)). destruct (pair_cosine q a1 b1 a2 b2 (l_mag a) (l_mag b) UA UB eq_refl) as (D & N1 & N2).
  pose proof (unit_dot_bounds _ _ UA UB) as Q. fold q in Q.
  assert (P1 : 0 < 1 - (1 - q * q) * (1 - (a1 * a1 + b1 * b1))) by (apply pair_norm_pos; [exact Q|rewrite G1; apply gain2_pos]).
  assert (P2 : 0 < 1 - (1 - q * q) * (1 - (a2 * a2 + b2 * b2))) by (apply pair_norm_pos; [exact Q|rewrite G2; apply gain2_pos]).
  set (v1 := spiral (l_mag b) a1 b1 (l_mag a)) in *. set (v2 := spiral (l_mag a) a2 b2 (l_mag b)) in *.
  assert (NZ : forall v, 0 < Norm2 v -> v <> Zero) by (intros v H X; rewrite X in H; unfold Norm2, Dot, Zero in H; lra).
  assert (NZ1 : v1 <> Zero) by (apply NZ; lra). assert (NZ2 : v2 <> Zero) by (apply NZ; lra).
  destruct SA as [[X _]|[_ EA]]; [contradiction|]. destruct SB as [[X _]|[_ EB]]; [contradiction|]. rewrite EA, EB.
  split; [rewrite <- vnormalize_nonzero by exact NZ1; apply vnormalize_unit; exact NZ1|]. split; [rewrite <- vnormalize_nonzero by exact NZ2; apply vnormalize_unit; exact NZ2|].
  assert (DS : forall k1 k2 x y, Dot (Scal k1 x) (Scal k2 y) = k1 * k2 * Dot x y) by (intros k1 k2 [x1 x2 x3] [y1 y2 y3]; unfold Dot, Scal; ring).
  rewrite DS, D. unfold next_cosine, Norm. rewrite N1, N2. field. split; apply Rgt_not_eq, sqrt_lt_R0; assumption.
Qed.

(** ** Where the angle goes *)
Lemma gain_rk z : fst (gain RunMulti z) = 1 - z ^ 2 / 2 + z ^ 4 / 24 /\ snd (gain RunMulti z) = z - z ^ 3 / 6.
Proof. split; reflexivity. Qed.
Lemma next_cosine_below z q : -1 <= q <= 1 -> z ^ 2 <= 1 ->
  next_cosine q (fst (gain RunMulti z)) (snd (gain RunMulti z)) (fst (gain RunMulti z)) (snd (gain RunMulti z)) <= q - 2 / 5 * z ^ 2 * (1 - q * q).
Proof.
  intros Hq Hz. unfold next_cosine. rewrite gain_norm. set (N := 1 - (1 - q * q) * (1 - gain2 RunMulti z)).
  assert (PN : 0 < N) by (apply pair_norm_pos; [exact Hq|apply gain2_pos]). rewrite sqrt_sqrt by lra.
  set (y := z ^ 2) in *. assert (Y : 0 <= y) by (unfold y; nra). assert (W : 0 <= 1 - q * q <= 1) by nra.
  assert (EG : 1 - gain2 RunMulti z = y ^ 3 * (8 - y) / 576) by (unfold y; cbn [gain2]; field).
  assert (EA : (1 - fst (gain RunMulti z)) = y / 2 - y ^ 2 / 24) by (unfold y; cbn [gain fst]; field).
  assert (EB : snd (gain RunMulti z) * snd (gain RunMulti z) = y * (1 - y / 6) ^ 2) by (unfold y; cbn [gain snd]; field).
  rewrite EB, EA. set (D := q * (y / 2 - y ^ 2 / 24) * (y / 2 - y ^ 2 / 24) + y * (1 - y / 6) ^ 2). set (e := 1 - gain2 RunMulti z) in *.
  assert (Y2 : 0 <= y ^ 2 <= y) by (split; nra). assert (Y3 : 0 <= y ^ 3 <= y) by (split; [apply pow_le; exact Y|replace (y ^ 3) with (y * y ^ 2) by ring; nra]).
  assert (E1 : 0 <= e <= y / 72) by (rewrite EG; split; [assert (0 <= y ^ 3 * (8 - y)) by (apply Rmult_le_pos; lra); lra|assert (y ^ 3 * (8 - y) <= y * 8) by (apply Rmult_le_compat; lra); lra]).
  assert (C : 0 <= (y / 2 - y ^ 2 / 24) * (y / 2 - y ^ 2 / 24) <= y / 4).
  { split; [nra|]. assert (0 <= y / 2 - y ^ 2 / 24 <= y / 2) by lra. assert ((y / 2 - y ^ 2 / 24) * (y / 2 - y ^ 2 / 24) <= y / 2 * (y / 2)) by (apply Rmult_le_compat; lra). assert (y / 2 * (y / 2) = y ^ 2 / 4) by field. lra. }
  assert (B : 25 / 36 * y <= y * (1 - y / 6) ^ 2) by (assert (25 / 36 <= (1 - y / 6) ^ 2) by nra; nra).
  assert (DL : 4 / 9 * y <= D) by (unfold D; rewrite Rmult_assoc; nra).
  assert (N1 : N <= 1) by (unfold N; fold e; assert (0 <= (1 - q * q) * e) by (apply Rmult_le_pos; lra); lra).
  apply Rmult_le_reg_r with N; [exact PN|]. replace ((q - (1 - q * q) * D) / N * N) with (q - (1 - q * q) * D) by (field; lra).
  assert (K : q * N = q - (1 - q * q) * (q * e)) by (unfold N; fold e; ring).
  assert (F : q * e <= e) by nra.
  assert (G : (1 - q * q) * (q * e + 2 / 5 * y) <= (1 - q * q) * D) by (apply Rmult_le_compat_l; lra).
  assert (G2 : 2 / 5 * y * (1 - q * q) * N <= 2 / 5 * y * (1 - q * q) * 1) by (apply Rmult_le_compat_l; [apply Rmult_le_pos; lra|exact N1]).
  replace ((q - 2 / 5 * y * (1 - q * q)) * N) with (q * N - 2 / 5 * y * (1 - q * q) * N) by ring. rewrite K. lra.
Qed.
(** ** Many steps *)
Lemma pair_static a b a' b' h1 h2 : static a a' -> static b b' -> exchange_pair a b h1 h2 -> exchange_pair a' b' h1 h2.
Proof. intros (m & c & rp & bf & ->) (m' & c' & rp' & bf' & ->) (Q1 & Q2 & F1 & F2). split; [exact Q1|]. split; [exact Q2|]. split; [exact F1|exact F2]. Qed.
Lemma pair_states dt s N a b h1 h2 : exchange_pair a b h1 h2 -> Unit (l_mag a) -> Unit (l_mag b) -> j_layers (s 0%nat) = [a; b] -> trajectory RunMulti dt s N ->
  forall k, (k <= N)%nat -> exists ak bk, j_layers (s k) = [ak; bk] /\ exchange_pair ak bk h1 h2 /\ Unit (l_mag ak) /\ Unit (l_mag bk).
Proof.
  intros HE UA UB E0 HT. induction k as [|k IH]; intros Hk; [exists a, b; auto|].
  destruct (IH ltac:(lia)) as (ak & bk & EK & HK & UK & VK). pose proof (HT k ltac:(lia)) as ST. cbn [run_runner] in ST.
  destruct (traj_static _ _ _ _ (S k) HT Hk) as (_ & LE & SS). rewrite E0 in LE, SS. destruct (j_layers (s (S k))) as [|a' [|b' [|x ls]]] eqn:EL; try discriminate.
  exists a', b'. split; [reflexivity|]. split; [exact (pair_static a b a' b' h1 h2 (SS 0%nat a a' eq_refl eq_refl) (SS 1%nat b b' eq_refl eq_refl) HE)|].
  destruct (pair_step _ _ _ _ ak bk a' b' h1 h2 HK UK VK EK EL ST) as (A & B & _). split; assumption.
Qed.
Lemma pair_recurrence dt s N a b h1 h2 : exchange_pair a b h1 h2 -> Unit (l_mag a) -> Unit (l_mag b) -> j_layers (s 0%nat) = [a; b] -> trajectory RunMulti dt s N ->
  forall k ak bk ak' bk', (k < N)%nat -> j_layers (s k) = [ak; bk] -> j_layers (s (S k)) = [ak'; bk'] ->
  let z1 := gamma0 * h1 * dt in let z2 := gamma0 * h2 * dt in
  Dot (l_mag ak') (l_mag bk') = next_cosine (Dot (l_mag ak) (l_mag bk)) (fst (gain RunMulti z1)) (snd (gain RunMulti z1)) (fst (gain RunMulti z2)) (snd (gain RunMulti z2)).
Proof.
  intros HE UA UB E0 HT k ak bk ak' bk' Hk EK EK'. destruct (pair_states dt s N a b h1 h2 HE UA UB E0 HT k ltac:(lia)) as (x & y & EX & HX & UX & UY).
  assert (x = ak /\ y = bk) as [-> ->] by (rewrite EX in EK; injection EK; auto).
  exact (proj2 (proj2 (pair_step _ _ _ _ ak bk ak' bk' h1 h2 HX UX UY EX EK' (HT k ltac:(lia))))).
Qed.
Lemma pair_drift dt s N a b h : exchange_pair a b h h -> Unit (l_mag a) -> Unit (l_mag b) -> j_layers (s 0%nat) = [a; b] -> trajectory RunMulti dt s N ->
  (gamma0 * h * dt) ^ 2 <= 1 ->
  forall k ak bk ak' bk', (k < N)%nat -> j_layers (s k) = [ak; bk] -> j_layers (s (S k)) = [ak'; bk'] ->
  Dot (l_mag ak') (l_mag bk') <= Dot (l_mag ak) (l_mag bk) - 2 / 5 * (gamma0 * h * dt) ^ 2 * (1 - Dot (l_mag ak) (l_mag bk) * Dot (l_mag ak) (l_mag bk)).
Proof.
  intros HE UA UB E0 HT Hz k ak bk ak' bk' Hk EK EK'. rewrite (pair_recurrence dt s N a b h h HE UA UB E0 HT k ak bk ak' bk' Hk EK EK').
  destruct (pair_states dt s N a b h h HE UA UB E0 HT k ltac:(lia)) as (x & y & EX & HX & UX & UY).
  assert (x = ak /\ y = bk) as [-> ->] by (rewrite EX in EK; injection EK; auto).
  apply next_cosine_below; [apply unit_dot_bounds; assumption|exact Hz].
Qed.
Lemma nat_above x : exists k, x < INR k.
Proof.
  exists (Z.to_nat (up x)). destruct (archimed x) as [A _]. rewrite INR_IZR_INZ. destruct (Z_le_gt_dec 0 (up x)) as [H|H]; [rewrite Z2Nat.id by exact H; lra|].
  replace (Z.to_nat (up x)) with 0%nat by lia. cbn. assert (IZR (up x) < 0) by (apply IZR_lt; lia). lra.
Qed.
(** A sequence that falls by at least C (1 - x^2) at every step falls to -1. *)
Lemma falls x0 C eps : 0 < C -> x0 < 1 -> 0 < eps -> exists K, forall (x : nat -> R) N, (K <= N)%nat -> x 0%nat = x0 ->
  (forall k, (k <= N)%nat -> -1 <= x k <= 1) -> (forall k, (k < N)%nat -> x (S k) <= x k - C * (1 - x k * x k)) -> x N < -1 + eps.
Proof.
  intros HC H0 He. set (c := C * ((1 - x0) * eps)). assert (Pc : 0 < c) by (apply Rmult_lt_0_compat; [exact HC|apply Rmult_lt_0_compat; lra]).
  destruct (nat_above (2 / c)) as [K HK]. exists K. intros x N HN E0 HB HS.
  assert (DEC : forall k, (k <= N)%nat -> x k <= x0 /\ (x k < -1 + eps \/ x k <= x0 - INR k * c)).
  { induction k as [|k IH]; intros Hk; [rewrite E0; split; [lra|right; cbn; lra]|].
    destruct (IH ltac:(lia)) as [A B]. pose proof (HB k ltac:(lia)) as BK. pose proof (HS k ltac:(lia)) as SK. assert (P : 0 <= C * (1 - x k * x k)) by (apply Rmult_le_pos; nra).
    split; [lra|]. destruct B as [B|B]; [left; lra|]. destruct (Rlt_dec (x k) (-1 + eps)) as [L|L]; [left; lra|]. right. rewrite S_INR.
    assert (G : (1 - x0) * eps <= 1 - x k * x k). { replace (1 - x k * x k) with ((1 - x k) * (1 + x k)) by ring. apply Rmult_le_compat; lra. }
    assert (c <= C * (1 - x k * x k)) by (apply Rmult_le_compat_l; lra). lra. }
  destruct (DEC N (le_n N)) as [_ [A|A]]; [exact A|]. exfalso. pose proof (HB N (le_n N)) as BN. apply le_INR in HN.
  assert (2 < INR N * c). { apply Rlt_le_trans with (INR K * c); [|apply Rmult_le_compat_r; lra]. apply (Rmult_lt_compat_r c) in HK; [|exact Pc]. replace (2 / c * c) with 2 in HK by (field; lra). exact HK. }
  lra.
Qed.
Lemma pair_limit z q eps : z <> 0 -> z ^ 2 <= 1 -> q < 1 -> 0 < eps -> exists K, forall dt s N a b aN bN h, (K <= N)%nat ->
  exchange_pair a b h h -> Unit (l_mag a) -> Unit (l_mag b) -> j_layers (s 0%nat) = [a; b] -> trajectory RunMulti dt s N ->
  gamma0 * h * dt = z -> Dot (l_mag a) (l_mag b) = q -> j_layers (s N) = [aN; bN] -> Dot (l_mag aN) (l_mag bN) < -1 + eps.
Proof.
  intros Hz Hz1 Hq He. destruct (falls q (2 / 5 * z ^ 2) eps) as [K HK]; [assert (0 < z ^ 2) by nra; lra|exact Hq|exact He|].
  exists K. intros dt s N a b aN bN h HN HE UA UB E0 HT Ez Eq EN.
  set (x := fun k => match j_layers (s k) with [c; d] => Dot (l_mag c) (l_mag d) | _ => 0 end).
  replace (Dot (l_mag aN) (l_mag bN)) with (x N) by (unfold x; rewrite EN; reflexivity). apply HK; [exact HN|unfold x; rewrite E0; exact Eq| |].
  - intros k Hk. destruct (pair_states dt s N a b h h HE UA UB E0 HT k Hk) as (ak & bk & EK & _ & UK & VK). unfold x. rewrite EK. apply unit_dot_bounds; assumption.
  - intros k Hk. destruct (pair_states dt s N a b h h HE UA UB E0 HT k ltac:(lia)) as (ak & bk & EK & _). destruct (pair_states dt s N a b h h HE UA UB E0 HT (S k) Hk) as (ak' & bk' & EK' & _).
    unfold x. rewrite EK, EK'. rewrite <- Ez. apply (pair_drift dt s N a b h HE UA UB E0 HT ltac:(rewrite Ez; exact Hz1) k); assumption.
Qed.

(** ** Simulations *)
Lemma pair_run T dt wf e j j' a b a' b' h : exchange_pair a b h h -> Unit (l_mag a) -> Unit (l_mag b) -> j_layers j = [a; b] -> j_layers j' = [a'; b'] ->
  (gamma0 * h * dt) ^ 2 <= 1 -> runSimulation T dt wf e RK4 j = (j', Ok tt) ->
  exists N, IntegerPart (T / dt) N /\ Dot (l_mag a') (l_mag b') <= Dot (l_mag a) (l_mag b) /\
    (gamma0 * h * dt <> 0 -> -1 < Dot (l_mag a) (l_mag b) < 1 -> (0 < N)%nat -> Dot (l_mag a') (l_mag b') < Dot (l_mag a) (l_mag b)).
Proof.
  intros HE UA UB EJ EJ' Hz E. destruct (run_sound _ _ _ _ _ _ _ E) as (N & w & j0 & r & used & s & rows & HC & HSel & Hs & Htr & _ & _ & Ej & _).
  assert (HQ : forall l, In l (j_layers j) -> quiet l) by (rewrite EJ; intros l [<-|[<-|[]]]; apply HE).
  destruct (quiet_run RK4 N j j0 r used HQ HSel) as [-> _]. pose proof (quiet_used RK4 N j j r used HQ HSel) as X. unfold layerNo in X. rewrite EJ in X. cbn in X. subst r.
  assert (E0 : j_layers (s 0%nat) = [a; b]) by (rewrite Hs; exact EJ). assert (EN : j_layers (s N) = [a'; b']) by (rewrite Ej in EJ'; exact EJ').
  assert (D : forall k ak bk, (k <= N)%nat -> j_layers (s k) = [ak; bk] -> Dot (l_mag ak) (l_mag bk) <= Dot (l_mag a) (l_mag b) - (if k then 0 else 2 / 5 * (gamma0 * h * dt) ^ 2 * (1 - Dot (l_mag a) (l_mag b) * Dot (l_mag a) (l_mag b)))).
  { induction k as [|k IH]; intros ak bk Hk EK; [rewrite E0 in EK; injection EK as <- <-; lra|].
    destruct (pair_states dt s N a b h h HE UA UB E0 Htr k ltac:(lia)) as (x & y & EX & _ & UX & UY). pose proof (pair_drift dt s N a b h HE UA UB E0 Htr Hz k x y ak bk ltac:(lia) EX EK) as ST.
    specialize (IH x y ltac:(lia) EX). destruct k as [|k]; [rewrite E0 in EX; injection EX as <- <-; exact ST|].
    pose proof (unit_dot_bounds _ _ UX UY). assert (0 <= 2 / 5 * (gamma0 * h * dt) ^ 2 * (1 - Dot (l_mag x) (l_mag y) * Dot (l_mag x) (l_mag y))) by (apply Rmult_le_pos; nra). lra. }
  exists N. split; [apply HC|]. specialize (D N a' b' (le_n N) EN). pose proof (unit_dot_bounds _ _ UA UB) as B.
  assert (Z0 : 0 <= (gamma0 * h * dt) ^ 2) by apply pow2_ge_0. split.
  - destruct N; [lra|]. assert (0 <= 2 / 5 * (gamma0 * h * dt) ^ 2 * (1 - Dot (l_mag a) (l_mag b) * Dot (l_mag a) (l_mag b))) by (apply Rmult_le_pos; nra). lra.
  - intros NZ Q HN. destruct N; [lia|]. assert (0 < (gamma0 * h * dt) ^ 2) by nra. assert (0 < 2 / 5 * (gamma0 * h * dt) ^ 2 * (1 - Dot (l_mag a) (l_mag b) * Dot (l_mag a) (l_mag b))) by (apply Rmult_lt_0_compat; nra). lra.
Qed.

(** ** Which pairs *)
Lemma held_pair a b J : held_by a b J -> exchange_pair a b (J / (l_Ms a * l_thickness a)) (J / (l_Ms b * l_thickness b)).
Proof.
  intros [(QA & A1 & A2 & A3 & A4 & A5 & A6 & A7 & A8 & IA) (QB & B1 & B2 & B3 & B4 & B5 & B6 & B7 & B8 & IB)].
  split; [exact QA|]. split; [exact QB|]. split; intros w; repeat (split; [assumption|]); intros t m; (eexists; split; [first [apply IA|apply IB]|]);
    unfold H_eff, IEC_total, IDMI_total, H_anis, dipole_total, H_iec, H_idmi, H_tensor; [rewrite A6, A7, A8|rewrite B6, B7, B8]; cbn [fi_ext fi_oe fi_dmi fi_res fi_K fi_Jb fi_Jt fi_J2b fi_J2t fi_Db fi_Dt];
    unfold null_tensor; [generalize (l_anis a)|generalize (l_anis b)]; intros [a1 a2 a3]; destruct m, w; unfold Rdiv; vsimp; cbn -[Rmult Rplus Rdiv Rinv gamma0 mu0 Ropp]; apply vec_eq; cbn -[Rmult Rplus Rdiv Rinv gamma0 mu0 Ropp]; ring.
Qed.
(** ** A ferromagnetic pair at a right angle *)
Definition ex_lower : layer := set_l_IECTop (cdrv (/ gamma0)) (set_l_external null_axial (ex_spin "a")).
Definition ex_upper : layer := set_l_IECBottom (cdrv (/ gamma0)) (set_l_mag (CV 0 1 0) (set_l_external null_axial (ex_spin "b"))).
Definition ex_bonded : junction := ex_plain_pair ex_lower ex_upper.
Lemma bonded_held : held_by ex_lower ex_upper (/ gamma0).
Proof. unfold held_by, only_inputs. repeat split; cbn; lra. Qed.
Lemma bonded_pair : exchange_pair ex_lower ex_upper (/ gamma0) (/ gamma0).
Proof.
  pose proof (held_pair _ _ _ bonded_held) as H. replace (/ gamma0 / (l_Ms ex_lower * l_thickness ex_lower)) with (/ gamma0) in H by (cbn; unfold gamma0; field).
  replace (/ gamma0 / (l_Ms ex_upper * l_thickness ex_upper)) with (/ gamma0) in H by (cbn; unfold gamma0; field). exact H.
Qed.
Lemma bonded_runs e mode n : (0 < n < 4294967296)%Z -> exists j', runSimulation 1 (/ IZR n) (/ IZR n) e mode ex_bonded = (j', Ok tt).
Proof.
  intros Hn. assert (P : 1 <= IZR n < 4294967296) by (split; [apply IZR_le; lia|apply IZR_lt; lia]). pose proof (Rinv_0_lt_compat (IZR n) ltac:(lra)).
  assert (EN : INR (Z.to_nat n) = IZR n) by (rewrite INR_IZR_INZ, Z2Nat.id by lia; reflexivity).
  apply (run_exists _ _ _ _ _ _ (Z.to_nat n) 1); [lra|discriminate|discriminate| |lia|].
  - assert (A : 1 / (/ IZR n) = IZR n) by (field; lra). assert (B : / IZR n / / IZR n = 1) by (field; lra).
    repeat split; try lra; rewrite ?A, ?B; try lra; left; rewrite ?EN; cbn [INR]; lra.
  - intros l Hl. destruct bonded_held as [HA HB]. assert (X : exists i, only_inputs l i) by (destruct Hl as [<-|[<-|[]]]; eexists; eassumption). destruct X as (i & Q & _ & A & B & C & D & _ & _ & _ & I).
    split; [|split; [destruct Hl as [<-|[<-|[]]]; reflexivity|destruct Hl as [<-|[<-|[]]]; discriminate]].
    intros t m b top. apply plain_total; try assumption. intros s. exists i. apply I.
Qed.
Lemma bonded_units : Unit (l_mag ex_lower) /\ Unit (l_mag ex_upper) /\ Dot (l_mag ex_lower) (l_mag ex_upper) = 0.
Proof. unfold Unit, Norm2, Dot. cbn. repeat split; ring. Qed.
Lemma run_pair_layers T dt wf e mode j j' a b : runSimulation T dt wf e mode j = (j', Ok tt) -> (forall l, In l (j_layers j) -> quiet l) -> j_layers j = [a; b] -> exists a' b', j_layers j' = [a'; b'].
Proof.
  intros E HQ EJ. destruct (run_sound _ _ _ _ _ _ _ E) as (N & w & j0 & r & used & s & rows & HC & HSel & Hs & Htr & _ & _ & Ej & _).
  destruct (quiet_run mode N j j0 r used HQ HSel) as [-> _]. destruct (traj_static _ _ _ _ N Htr (le_n N)) as (_ & LE & _). rewrite Ej. cbn [j_layers set_j_log]. rewrite Hs, EJ in LE.
  destruct (j_layers (s N)) as [|x [|y [|z0 ls]]]; try discriminate. eauto.
Qed.
Lemma not_conserved : ~ forall T dt wf e j j' a b a' b' h1 h2, exchange_pair a b h1 h2 -> Unit (l_mag a) -> Unit (l_mag b) -> j_layers j = [a; b] -> j_layers j' = [a'; b'] ->
  runSimulation T dt wf e RK4 j = (j', Ok tt) -> Dot (l_mag a') (l_mag b') = Dot (l_mag a) (l_mag b).
Proof.
  intros H. destruct (bonded_runs false RK4 1%Z ltac:(lia)) as [j' E]. destruct bonded_units as (U1 & U2 & Q). destruct bonded_pair as (QA & QB & X).
  destruct (run_pair_layers _ _ _ _ _ _ _ ex_lower ex_upper E) as (a' & b' & EJ'); [intros l [<-|[<-|[]]]; assumption|reflexivity|].
  specialize (H 1 (/ IZR 1) (/ IZR 1) false ex_bonded j' ex_lower ex_upper a' b' _ _ bonded_pair U1 U2 eq_refl EJ' E).
  assert (EZ : gamma0 * / gamma0 * / IZR 1 = 1) by (unfold gamma0; field).
  destruct (pair_run 1 (/ IZR 1) (/ IZR 1) false ex_bonded j' ex_lower ex_upper a' b' (/ gamma0) bonded_pair U1 U2 eq_refl EJ' ltac:(rewrite EZ; lra) E) as (N & HI & _ & S).
  rewrite EZ, Q in S. specialize (S ltac:(lra) ltac:(lra)). assert (0 < N)%nat by (destruct N; [exfalso; cbn in HI; unfold IntegerPart in HI; cbn in HI; lra|lia]). specialize (S H0). lra.
Qed.
(** The error is of first order in the step: with [k = t / dt] the cosine is off by at least (3/10) (gamma0 h)^2 t dt. *)
Lemma pair_first_order dt s N a b h : exchange_pair a b h h -> Unit (l_mag a) -> Unit (l_mag b) -> j_layers (s 0%nat) = [a; b] -> trajectory RunMulti dt s N ->
  (gamma0 * h * dt) ^ 2 <= 1 -> -1 / 2 <= Dot (l_mag a) (l_mag b) <= 1 / 2 ->
  forall k ak bk, (k <= N)%nat -> j_layers (s k) = [ak; bk] ->
  Dot (l_mag ak) (l_mag bk) <= Rmax (-1 / 2) (Dot (l_mag a) (l_mag b) - 3 / 10 * (gamma0 * h) ^ 2 * (INR k * dt) * dt).
Proof.
  intros HE UA UB E0 HT Hz Hq. set (z2 := (gamma0 * h * dt) ^ 2) in *. assert (Z0 : 0 <= z2) by apply pow2_ge_0.
  assert (G : forall k ak bk, (k <= N)%nat -> j_layers (s k) = [ak; bk] -> Dot (l_mag ak) (l_mag bk) <= 1 / 2 /\ Dot (l_mag ak) (l_mag bk) <= Rmax (-1 / 2) (Dot (l_mag a) (l_mag b) - 3 / 10 * z2 * INR k)).
  { induction k as [|k IH]; intros ak bk Hk EK.
    - rewrite E0 in EK; injection EK as <- <-. cbn [INR]. split; [lra|]. pose proof (Rmax_r (-1 / 2) (Dot (l_mag a) (l_mag b) - 3 / 10 * z2 * 0)). lra.
    - destruct (pair_states dt s N a b h h HE UA UB E0 HT k ltac:(lia)) as (x & y & EX & _ & UX & UY). pose proof (pair_drift dt s N a b h HE UA UB E0 HT Hz k x y ak bk ltac:(lia) EX EK) as ST. fold z2 in ST.
      destruct (IH x y ltac:(lia) EX) as [I1 I2]. pose proof (unit_dot_bounds _ _ UX UY) as B. set (q := Dot (l_mag x) (l_mag y)) in *.
      assert (P : 0 <= 2 / 5 * z2 * (1 - q * q)) by (apply Rmult_le_pos; nra). split; [lra|]. destruct (Rle_dec q (-1 / 2)) as [L|L]; [pose proof (Rmax_l (-1 / 2) (Dot (l_mag a) (l_mag b) - 3 / 10 * z2 * INR (S k))); lra|].
      assert (D : 3 / 10 * z2 <= 2 / 5 * z2 * (1 - q * q)) by (assert (3 / 4 <= 1 - q * q) by nra; nra).
      pose proof (Rmax_r (-1 / 2) (Dot (l_mag a) (l_mag b) - 3 / 10 * z2 * INR (S k))) as M. rewrite S_INR in *.
      assert (I3 : q <= Dot (l_mag a) (l_mag b) - 3 / 10 * z2 * INR k) by (unfold Rmax in I2; destruct (Rle_dec _ _) in I2; lra). lra. }
  intros k ak bk Hk EK. destruct (G k ak bk Hk EK) as [_ X]. replace (3 / 10 * (gamma0 * h) ^ 2 * (INR k * dt) * dt) with (3 / 10 * z2 * INR k) by (unfold z2; ring). exact X.
Qed.
(** Equal layers turn about the sum of the two. *)
Definition ex_axis : cvec := CV (/ sqrt 2) (/ sqrt 2) 0.
Definition ex_dance (p : nat) (t : R) : cvec := turn ex_axis (sqrt 2 * t) (match p with O => CV 1 0 0 | _ => CV 0 1 0 end).
Lemma bonded_solves T : solves [ex_lower; ex_upper] T ex_dance (fun p t => Scal (sqrt 2) (Cross ex_axis (ex_dance p t))) /\ starts [ex_lower; ex_upper] ex_dance.
Proof.
  assert (S0 : 0 < sqrt 2) by (apply sqrt_lt_R0; lra). assert (S2 := sqrt_sqrt 2 ltac:(lra)).
  assert (U : Unit ex_axis). { unfold Unit, Norm2, Dot, ex_axis. cbn. replace (/ sqrt 2 * / sqrt 2) with (/ (sqrt 2 * sqrt 2)) by (field; lra). rewrite S2. field. }
  assert (SUM : forall t, Plus (ex_dance 0 t) (ex_dance 1 t) = Scal (sqrt 2) ex_axis).
  { intros t. assert (LIN : forall n th x y, Plus (turn n th x) (turn n th y) = turn n th (Plus x y)).
    { intros [n1 n2 n3] th [x1 x2 x3] [y1 y2 y3]. unfold turn, spiral, Minus, Plus, Scal, Dot, Cross. apply vec_eq; ring. }
    unfold ex_dance. rewrite LIN. replace (Plus (CV 1 0 0) (CV 0 1 0)) with (Scal (sqrt 2) ex_axis) by (unfold Plus, Scal, ex_axis; apply vec_eq; field; lra).
    unfold turn. rewrite spiral_scal. f_equal. rewrite spiral_def. unfold Unit, Norm2 in U. rewrite U. generalize ex_axis. intros [n1 n2 n3]. unfold Plus, Scal, Cross. apply vec_eq; ring. }
  destruct bonded_pair as (_ & _ & FA & FB). split.
  - intros p l t Hp _. split; [|apply (vderiv_turn ex_axis (sqrt 2) (match p with O => CV 1 0 0 | _ => CV 0 1 0 end) (ex_dance p) t U); reflexivity].
    assert (C0 : Scal (sqrt 2) (Cross ex_axis (ex_dance 0 t)) = Scal gamma0 (Cross (Scal (/ gamma0) (ex_dance 1 t)) (ex_dance 0 t)) /\ Scal (sqrt 2) (Cross ex_axis (ex_dance 1 t)) = Scal gamma0 (Cross (Scal (/ gamma0) (ex_dance 0 t)) (ex_dance 1 t))).
    { specialize (SUM t). destruct (ex_dance 0 t) as [x1 x2 x3], (ex_dance 1 t) as [y1 y2 y3], ex_axis as [n1 n2 n3]. unfold Plus, Scal, Cross in *. injection SUM as A B C.
      assert (G : gamma0 <> 0) by (unfold gamma0; lra). split; apply vec_eq; cbn [cx cy cz];
      match goal with |- sqrt 2 * (?a * ?b - ?c * ?d) = ?e => replace (sqrt 2 * (a * b - c * d)) with (sqrt 2 * a * b - sqrt 2 * c * d) by ring end; rewrite <- ?A, <- ?B, <- ?C; field; exact G. }
    destruct p as [|[|p]]; cbn in Hp; [injection Hp as <-|injection Hp as <-|destruct p; discriminate].
    + apply (feels_rhs ex_lower Zero (ex_dance 1 t) _ t (ex_dance 0 t) _ (FA (ex_dance 1 t))). apply C0.
    + apply (feels_rhs ex_upper (ex_dance 0 t) Zero _ t (ex_dance 1 t) _ (FB (ex_dance 0 t))). apply C0.
  - intros p l Hp. unfold ex_dance, turn. rewrite Rmult_0_r, cos_0, sin_0, spiral_one. destruct p as [|[|p]]; cbn in Hp; [injection Hp as <-; reflexivity|injection Hp as <-; reflexivity|destruct p; discriminate].
Qed.
