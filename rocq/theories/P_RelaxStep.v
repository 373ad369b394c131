(** Damped relaxation: bounds on the cosine after one step. *)
From Verif Require Import P_Relax.
From Coq Require Import Reals Lra Lia Psatz.
Open Scope R_scope.

Lemma abs_mul a b A B : - A <= a <= A -> - B <= b <= B -> - (A * B) <= a * b <= A * B.
Proof. intros. split; nra. Qed.
Lemma pos_mul k w W : 0 <= k <= 1 -> - W <= w <= W -> - (k * W) <= k * w <= k * W.
Proof. intros. split; [rewrite Ropp_mult_distr_r|]; apply Rmult_le_compat_l; lra. Qed.

Section Estimates.
Context (s al z : R) (Hs : 0 < s <= 1 / 32) (Ha : 0 < al <= 1) (Hz : -1 <= z <= 1).
Let u := 1 - z * z.
Lemma u_bounds : 0 <= u <= 1.
Proof. unfold u. nra. Qed.
(** A stage: its value [v] and the value [(x, y)] it would have without damping. *)
Definition near (v : cvec) (x y : R) : Prop :=
  (- (5 / 4 * s) <= cx v - 1 <= 5 / 4 * s) /\ (- (5 / 4 * s) <= cy v <= 5 / 4 * s) /\ (0 <= cz v - z <= 5 / 4 * (s * al)) /\
  (- (5 / 4 * (s * al)) <= cx v - x <= 5 / 4 * (s * al)) /\ (- (5 / 4 * (s * al)) <= cy v - y <= 5 / 4 * (s * al)).
Lemma sa : 0 < s * al <= s.
Proof. nra. Qed.
Lemma near_start : near (CV 1 0 z) 1 0.
Proof. pose proof sa. unfold near. cbn [cx cy cz]. repeat split; lra. Qed.
(** The slope at a stage: size, and distance from the undamped slope. *)
Definition slow (d : cvec) (x y : R) : Prop :=
  (- (9 / 8) <= cx d <= 9 / 8) /\ (- (9 / 8) <= cy d <= 9 / 8) /\ (0 <= cz d <= 9 / 8 * al) /\
  (- (19 / 5 * (s * al)) <= cx d - - y + al * z <= 19 / 5 * (s * al)) /\
  (- (13 / 5 * (s * al)) <= cy d - x <= 13 / 5 * (s * al)) /\
  (- (27 / 10 * (s * (al * u))) <= cz d - al * u <= 27 / 10 * (s * (al * u))).
Lemma near_slow v x y : near v x y -> slow (slope al u v) x y.
Proof.
  destruct v as [a b c]. unfold near, slow, slope. cbn [cx cy cz]. intros (A & B & C & D & E). pose proof sa as SA. pose proof u_bounds as UB. clearbody u.
  assert (A' : - (26 / 25) <= a <= 26 / 25) by lra. assert (B' : - (1 / 25) <= b <= 1 / 25) by lra. assert (C' : - (26 / 25) <= c <= 26 / 25) by lra.
  assert (CA : - (26 / 25 * (26 / 25)) <= c * a <= 26 / 25 * (26 / 25)) by (apply abs_mul; assumption).
  assert (CB : - (26 / 25 * (5 / 4 * s)) <= c * b <= 26 / 25 * (5 / 4 * s)) by (apply abs_mul; [assumption|lra]).
  assert (LA : - (51 / 20 * s) <= c * a - z <= 51 / 20 * s).
  { replace (c * a - z) with ((c - z) * a + z * (a - 1)) by ring.
    assert (X1 : - (5 / 4 * s * (26 / 25)) <= (c - z) * a <= 5 / 4 * s * (26 / 25)) by (apply abs_mul; lra).
    assert (X2 : - (1 * (5 / 4 * s)) <= z * (a - 1) <= 1 * (5 / 4 * s)) by (apply abs_mul; lra). lra. }
  assert (Y1 : - (5 / 4 * s * (1 / 25)) <= (a - 1) * (a - 1) <= 5 / 4 * s * (1 / 25)) by (apply abs_mul; lra).
  assert (Y2 : - (5 / 4 * s * (1 / 25)) <= b * b <= 5 / 4 * s * (1 / 25)) by (apply abs_mul; lra).
  assert (AB : - (27 / 10 * s) <= a * a + b * b - 1 <= 27 / 10 * s) by (replace (a * a) with ((a - 1) * (a - 1) + 2 * a - 1) by ring; lra).
  assert (P0 : 0 <= a * a + b * b <= 9 / 8) by lra.
  replace (al * c * a) with (al * (c * a)) by ring. replace (al * c * b) with (al * (c * b)) by ring.
  assert (HA : 0 <= al <= 1) by lra.
  pose proof (pos_mul al _ _ HA CA) as M1. pose proof (pos_mul al _ _ HA CB) as M2. pose proof (pos_mul al (c * a - z) _ HA LA) as M4.
  assert (AU : 0 <= al * u <= al) by (split; [apply Rmult_le_pos; lra|rewrite <- (Rmult_1_r al) at 2; apply Rmult_le_compat_l; lra]).
  clear A' B' C' CA CB LA Y1 Y2. split; [|split; [|split; [|split; [|split]]]].
  - lra.
  - lra.
  - split; [apply Rmult_le_pos; lra|]. apply Rle_trans with (al * u * (9 / 8)); [apply Rmult_le_compat_l; lra|lra].
  - lra.
  - lra.
  - replace (al * u * (a * a + b * b) - al * u) with (al * u * (a * a + b * b - 1)) by ring.
    replace (27 / 10 * (s * (al * u))) with (al * u * (27 / 10 * s)) by ring. split; [rewrite Ropp_mult_distr_r|]; apply Rmult_le_compat_l; lra.
Qed.
Lemma slow_near k d x y : 0 <= k <= 1 -> slow d x y -> near (Plus (CV 1 0 z) (Scal (k * s) d)) (1 + k * s * - y) (k * s * x).
Proof.
  destruct d as [a b c]. unfold near, slow, Plus, Scal. cbn [cx cy cz]. intros Hk (A & B & C & D & E & _). pose proof sa as SA. 
  assert (KS : 0 <= k * s <= s) by (split; [apply Rmult_le_pos; lra|rewrite <- (Rmult_1_l s) at 2; apply Rmult_le_compat_r; lra]).
  assert (HS : 0 <= s <= 1 / 32) by lra.
  assert (M : forall w W, - W <= w <= W -> - (s * W) <= k * s * w <= s * W).
  { intros w W HW. pose proof (pos_mul (k * s) w W ltac:(lra) HW). assert (0 <= W) by lra. assert (k * s * W <= s * W) by (apply Rmult_le_compat_r; lra). lra. }
  pose proof (M _ _ A) as MA. pose proof (M _ _ B) as MB. pose proof (M _ _ E) as ME.
  assert (Z0 : - (1 * al) <= z * al <= 1 * al) by (apply abs_mul; lra).
  assert (Z1 : - (6 / 5 * al) <= a - - y <= 6 / 5 * al) by (assert (s * al <= 1 / 32 * al) by (apply Rmult_le_compat_r; lra); lra). pose proof (M _ _ Z1) as MZ.
  assert (Z2 : s * (13 / 5 * (s * al)) <= 1 / 32 * (13 / 5 * (s * al))) by (apply Rmult_le_compat_r; lra).
  assert (C' : - (9 / 8 * al) <= c <= 9 / 8 * al) by lra. pose proof (M _ _ C') as MC. assert (0 <= k * s * c) by (apply Rmult_le_pos; lra).
  clear M A B C C' D E Z1 Z0. split; [|split; [|split; [|split]]]; lra.
Qed.
Definition undamped_a : R := 1 - s ^ 2 / 2 + s ^ 4 / 24.
Definition undamped_b : R := s - s ^ 3 / 6.
Let c := classical al u s (CV 1 0 z).
(** The whole step. *)
Lemma step_parts :
  (- (19 / 5 * (s * (s * al))) <= cx c - undamped_a + s * al * z <= 19 / 5 * (s * (s * al))) /\
  (- (13 / 5 * (s * (s * al))) <= cy c - undamped_b <= 13 / 5 * (s * (s * al))) /\
  (- (27 / 10 * (s * (s * (al * u)))) <= cz c - z - s * (al * u) <= 27 / 10 * (s * (s * (al * u)))).
Proof.
  unfold c, classical. cbv zeta. set (v := CV 1 0 z). set (k1 := slope al u v). set (k2 := slope al u (Plus v (Scal (s / 2) k1))).
  set (k3 := slope al u (Plus v (Scal (s / 2) k2))). set (k4 := slope al u (Plus v (Scal s k3))).
  assert (S1 : slow k1 1 0) by (apply near_slow, near_start).
  assert (S2 : slow k2 (1 + 1 / 2 * s * - 0) (1 / 2 * s * 1)).
  { apply near_slow. replace (s / 2) with (1 / 2 * s) by field. apply slow_near; [lra|exact S1]. }
  assert (S3 : slow k3 (1 + 1 / 2 * s * - (1 / 2 * s * 1)) (1 / 2 * s * (1 + 1 / 2 * s * - 0))).
  { apply near_slow. replace (s / 2) with (1 / 2 * s) by field. apply slow_near; [lra|exact S2]. }
  assert (S4 : slow k4 (1 + 1 * s * - (1 / 2 * s * (1 + 1 / 2 * s * - 0))) (1 * s * (1 + 1 / 2 * s * - (1 / 2 * s * 1)))).
  { apply near_slow. replace s with (1 * s) at 1 by ring. apply slow_near; [lra|exact S3]. }
  clearbody k1 k2 k3 k4. unfold v. clear v c. destruct k1 as [a1 b1 c1], k2 as [a2 b2 c2], k3 as [a3 b3 c3], k4 as [a4 b4 c4].
  unfold slow in *. cbn [cx cy cz] in *. cbn [Sum fold_right]. unfold Plus, Scal, Zero. cbn [cx cy cz]. unfold undamped_a, undamped_b.
  destruct S1 as (_ & _ & _ & X1 & Y1 & W1). destruct S2 as (_ & _ & _ & X2 & Y2 & W2). destruct S3 as (_ & _ & _ & X3 & Y3 & W3). destruct S4 as (_ & _ & _ & X4 & Y4 & W4).
  assert (M : forall w W, - W <= w <= W -> - (s * W) <= s * w <= s * W) by (intros; apply pos_mul; lra).
  pose proof (M _ _ X1). pose proof (M _ _ X2). pose proof (M _ _ X3). pose proof (M _ _ X4). pose proof (M _ _ Y1). pose proof (M _ _ Y2). pose proof (M _ _ Y3). pose proof (M _ _ Y4).
  pose proof (M _ _ W1). pose proof (M _ _ W2). pose proof (M _ _ W3). pose proof (M _ _ W4). clear X1 X2 X3 X4 Y1 Y2 Y3 Y4 W1 W2 W3 W4 M.
  split; [|split]; split; lra.
Qed.
Definition loss : R := s ^ 6 / 72 - s ^ 8 / 576.
Lemma loss_bounds : s ^ 6 / 73 <= loss <= s ^ 6 / 72.
Proof.
  unfold loss. replace (s ^ 8) with (s ^ 6 * s ^ 2) by ring. assert (0 <= s ^ 2 <= 1 / 32) by (split; nra). assert (0 <= s ^ 6) by (apply pow_le; lra).
  assert (0 <= s ^ 6 * s ^ 2 <= s ^ 6 * (1 / 32)) by (split; [apply Rmult_le_pos; lra|apply Rmult_le_compat_l; lra]). lra.
Qed.
(** The squared length before normalisation. *)
Lemma step_length : let N2 := u * (cx c * cx c + cy c * cy c) + cz c * cz c in
  - (u * (loss + 16 * (s * (s * al)))) <= N2 - 1 <= u * (16 * (s * (s * al)) - loss).
Proof.
  destruct step_parts as (HX & HY & HZ). pose proof u_bounds as UB. pose proof sa as SA.
  replace (s * (s * (al * u))) with (s * (s * al) * u) in HZ by ring. replace (s * (al * u)) with (s * al * u) in HZ by ring.
  assert (AB : undamped_a * undamped_a + undamped_b * undamped_b = 1 - loss) by (unfold undamped_a, undamped_b, loss; field).
  assert (A0 : - (1 / 2 * (s * s)) <= undamped_a - 1 <= 0).
  { unfold undamped_a. assert (0 <= s ^ 2 <= 1) by nra. replace (s ^ 4) with (s ^ 2 * s ^ 2) by ring. replace (s * s) with (s ^ 2) by ring. nra. }
  assert (B0 : 0 <= undamped_b <= s). { unfold undamped_b. replace (s ^ 3) with (s * (s * s)) by ring. assert (0 <= s * s <= 1) by nra. nra. }
  assert (UD : u = 1 - z * z) by reflexivity.
  clearbody u c. destruct c as [X Y Z]; cbn [cx cy cz] in *. clear c. set (A := undamped_a) in *. set (B := undamped_b) in *. set (P := s * al) in *. set (L := loss) in *. clearbody A B L.
  assert (EP : 0 < s * P <= 1 / 32 * P) by (split; [apply Rmult_lt_0_compat; lra|apply Rmult_le_compat_r; lra]).
  assert (PP : 0 <= P * P <= s * P) by (split; [apply Rmult_le_pos; lra|apply Rmult_le_compat_r; lra]).
  clearbody P. set (e := s * P) in *. set (x := X - A). assert (EX : X = A + x) by (unfold x; ring). set (y := Y - B). assert (EY : Y = B + y) by (unfold y; ring). fold x in HX. fold y in HY.
  assert (PZ : - (P * 1) <= P * z <= P * 1) by (apply abs_mul; lra).
  assert (XB : - (28 / 25 * P) <= x <= 28 / 25 * P) by lra.
  assert (XX : 0 <= x * x <= 127 / 100 * e). { assert (Q : - (28 / 25 * P * (28 / 25 * P)) <= x * x <= 28 / 25 * P * (28 / 25 * P)) by (apply abs_mul; assumption). split; [apply Rle_0_sqr|lra]. }
  assert (AX : - (1 / 25 * e) <= 2 * ((A - 1) * x) <= 1 / 25 * e).
  { assert (Q : - (1 / 2 * (s * s) * (28 / 25 * P)) <= (A - 1) * x <= 1 / 2 * (s * s) * (28 / 25 * P)) by (apply abs_mul; [|exact XB]; assert (0 <= s * s) by (apply Rmult_le_pos; lra); lra).
    replace (1 / 2 * (s * s) * (28 / 25 * P)) with (14 / 25 * (s * e)) in Q by (unfold e; field). assert (s * e <= 1 / 32 * e) by (apply Rmult_le_compat_r; lra). lra. }
  assert (BY : - (17 / 100 * e) <= 2 * (B * y) <= 17 / 100 * e).
  { assert (Q : - (s * (13 / 5 * e)) <= B * y <= s * (13 / 5 * e)) by (apply abs_mul; lra). assert (s * e <= 1 / 32 * e) by (apply Rmult_le_compat_r; lra). lra. }
  assert (YY : 0 <= y * y <= 1 / 100 * e).
  { assert (Q : - (13 / 5 * e * (1 / 300)) <= y * y <= 13 / 5 * e * (1 / 300)) by (apply abs_mul; lra). split; [apply Rle_0_sqr|lra]. }
  assert (G : - (91 / 10 * e) <= X * X + Y * Y - (1 - L - 2 * (P * z)) <= 91 / 10 * e).
  { rewrite EX, EY. replace ((A + x) * (A + x) + (B + y) * (B + y)) with (A * A + B * B + (2 * x + 2 * ((A - 1) * x) + x * x) + (2 * (B * y) + y * y)) by ring. lra. }
  clear EX EY XX AX BY YY XB HX HY A0 B0 AB. clear x y.
  set (g := X * X + Y * Y - (1 - L - 2 * (P * z))) in *. assert (EG : X * X + Y * Y = 1 - L - 2 * (P * z) + g) by (unfold g; ring).
  clearbody g. set (w := Z - z - P * u) in *. assert (EZ : Z = z + P * u + w) by (unfold w; ring). clearbody w.
  assert (EU : 0 <= e * u) by (apply Rmult_le_pos; lra). assert (PU : 0 <= P * u) by (apply Rmult_le_pos; lra). assert (ES : e * u <= 1 / 32 * (P * u)) by (rewrite <- Rmult_assoc; apply Rmult_le_compat_r; lra).
  assert (ZW : - (1 * (27 / 10 * (e * u))) <= z * w <= 1 * (27 / 10 * (e * u))) by (apply abs_mul; lra).
  set (v := P * u + w). assert (VB : - (109 / 100 * (P * u)) <= v <= 109 / 100 * (P * u)) by (unfold v; lra).
  assert (PPU : P * u * (P * u) <= e * u).
  { replace (P * u * (P * u)) with (P * P * (u * u)) by ring. apply Rmult_le_compat; [lra|apply Rle_0_sqr|lra|]. rewrite <- (Rmult_1_r u) at 3. apply Rmult_le_compat_l; lra. }
  assert (VV : 0 <= v * v <= 119 / 100 * (e * u)).
  { assert (Q : - (109 / 100 * (P * u) * (109 / 100 * (P * u))) <= v * v <= 109 / 100 * (P * u) * (109 / 100 * (P * u))) by (apply abs_mul; assumption). split; [apply Rle_0_sqr|lra]. }
  assert (UG : - (91 / 10 * (e * u)) <= u * g <= 91 / 10 * (e * u)).
  { replace (91 / 10 * (e * u)) with (u * (91 / 10 * e)) by ring. apply pos_mul; lra. }
  cbv zeta. replace (u * (X * X + Y * Y) + Z * Z - 1) with (u * g - u * L + 2 * (z * w) + v * v).
  2: { rewrite EG, EZ. unfold v. rewrite UD. ring. }
  replace (u * (L + 16 * e)) with (u * L + 16 * (e * u)) by ring. replace (u * (16 * e - L)) with (16 * (e * u) - u * L) by ring. lra.
Qed.
Let N2 := u * (cx c * cx c + cy c * cy c) + cz c * cz c.
Let N := sqrt N2.
Lemma root_bounds : 0 < N /\ N <= 1 + u * (8 * (s * (s * al)) - loss / 2) /\ 1 - u * (5 / 8 * loss + 10 * (s * (s * al))) <= N.
Proof.
  pose proof step_length as SL. cbv zeta in SL. fold N2 in SL. pose proof u_bounds as UB. pose proof sa as SA. pose proof loss_bounds as LB. clearbody N2 u.
  set (e := s * (s * al)) in *. assert (EB : 0 <= e <= 1 / 1000). { unfold e. split; [apply Rmult_le_pos; lra|]. apply Rle_trans with (1 / 32 * (1 / 32)); [apply Rmult_le_compat; lra|lra]. }
  assert (S6 : 0 <= s ^ 6 <= 1 / 1000). { split; [apply pow_le; lra|]. apply Rle_trans with ((1 / 32) ^ 6); [apply pow_incr; lra|lra]. }
  set (L := loss) in *. clearbody e L. set (x := u * (L + 16 * e)) in *. assert (XB : 0 <= x <= 1 / 50) by (unfold x; split; [apply Rmult_le_pos; lra|apply Rle_trans with (1 * (L + 16 * e)); [apply Rmult_le_compat_r; lra|lra]]).
  replace (u * (5 / 8 * L + 10 * e)) with (5 / 8 * x) by (unfold x; field). set (y := u * (16 * e - L)) in *. replace (u * (8 * e - L / 2)) with (y / 2) by (unfold y; field).
  assert (YB : - (1 / 50) <= y) by (unfold x in XB; unfold y; assert (0 <= u * e) by (apply Rmult_le_pos; lra); lra). clearbody x y.
  assert (P2 : 0 < N2) by lra. split; [apply sqrt_lt_R0; exact P2|]. unfold N. split.
  - apply Rle_trans with (sqrt ((1 + y / 2) * (1 + y / 2))); [apply sqrt_le_1_alt; nra|]. rewrite sqrt_square by lra. lra.
  - apply Rle_trans with (sqrt ((1 - 5 / 8 * x) * (1 - 5 / 8 * x))); [rewrite sqrt_square by lra; lra|]. apply sqrt_le_1_alt. nra.
Qed.
Lemma quotient_above q : q * N <= cz c -> q <= cz c / N.
Proof. destruct root_bounds as (P & _). intros H. apply (Rmult_le_reg_r N); [exact P|]. unfold Rdiv. rewrite Rmult_assoc, Rinv_l by lra. lra. Qed.
Lemma quotient_below q : cz c <= q * N -> cz c / N <= q.
Proof. destruct root_bounds as (P & _). intros H. apply (Rmult_le_reg_r N); [exact P|]. unfold Rdiv. rewrite Rmult_assoc, Rinv_l by lra. lra. Qed.
(** Facts all three bounds share. *)
Lemma shared : let P := s * al in let e := s * P in 0 < P <= 1 / 32 /\ 0 <= e * u <= 1 / 32 * (P * u) /\ 0 <= P * u <= 1 / 32 /\
  z + P * u - 27 / 10 * (e * u) <= cz c <= z + P * u + 27 / 10 * (e * u).
Proof.
  destruct step_parts as (_ & _ & HZ). pose proof u_bounds as UB. pose proof sa as SA. cbv zeta.
  replace (s * (s * (al * u))) with (s * (s * al) * u) in HZ by ring. replace (s * (al * u)) with (s * al * u) in HZ by ring. clearbody u c. set (P := s * al) in *. clearbody P.
  assert (0 <= P * u) by (apply Rmult_le_pos; lra). assert (P * u <= P * 1) by (apply Rmult_le_compat_l; lra).
  assert (0 <= s * P * u) by (rewrite Rmult_assoc; apply Rmult_le_pos; lra). assert (s * P * u <= 1 / 32 * (P * u)) by (rewrite Rmult_assoc; apply Rmult_le_compat_r; lra). lra.
Qed.
Lemma loss_small : s ^ 5 <= al -> 0 <= u * loss <= s * al * u / 72.
Proof.
  intros H. pose proof loss_bounds as LB. pose proof u_bounds as UB. assert (0 <= s ^ 6) by (apply pow_le; lra). assert (s ^ 6 <= s * al) by (replace (s ^ 6) with (s * s ^ 5) by ring; apply Rmult_le_compat_l; lra).
  clearbody u. split; [apply Rmult_le_pos; lra|]. apply Rle_trans with (u * (s * al / 72)); [apply Rmult_le_compat_l; lra|lra].
Qed.
(** Towards the field ... *)
Lemma approaches : 0 <= z \/ s ^ 5 <= al -> z + s * al / 2 * u <= next_along al s z.
Proof.
  intros HC. unfold next_along. cbv zeta. fold u c N2 N. apply quotient_above. destruct root_bounds as (NP & NU & NL). destruct shared as (PB & EU & PU & ZB). pose proof u_bounds as UB. pose proof loss_bounds as LB.
  assert (L0 : 0 <= u * loss) by (apply Rmult_le_pos; [lra|]; assert (0 <= s ^ 6) by (apply pow_le; lra); lra).
  assert (LS : z + s * al / 2 * u < 0 -> u * loss <= s * al * u / 72).
  { intros X. destruct HC as [C|C]; [exfalso; lra|apply loss_small; exact C]. }
  replace (u * (8 * (s * (s * al)) - loss / 2)) with (8 * (s * (s * al) * u) - u * loss / 2) in NU by field. replace (u * (5 / 8 * loss + 10 * (s * (s * al)))) with (5 / 8 * (u * loss) + 10 * (s * (s * al) * u)) in NL by ring.
  set (e := s * (s * al) * u) in *. set (P := s * al) in *. set (L := u * loss) in *. set (q := z + P / 2 * u). assert (QB : -1 <= q <= 65 / 64) by (unfold q; lra).
  fold q in LS. assert (EQ : q = z + P * u / 2) by (unfold q; field). set (p := P * u) in *. clearbody N c u p e q L. clear N2.
  destruct (Rle_dec 0 q) as [C|C].
  - apply Rle_trans with (q * (1 + 8 * e)); [apply Rmult_le_compat_l; lra|]. assert (q * (8 * e) <= 65 / 64 * (8 * e)) by (apply Rmult_le_compat_r; lra). lra.
  - specialize (LS ltac:(lra)). apply Rle_trans with (q * (1 - (5 / 8 * L + 10 * e))); [apply Rmult_le_compat_neg_l; lra|]. assert (- q * (5 / 8 * L + 10 * e) <= 1 * (5 / 8 * L + 10 * e)) by (apply Rmult_le_compat_r; lra). lra.
Qed.
(** ... not much faster than the equations ... *)
Lemma not_faster : s ^ 5 <= al -> next_along al s z <= z + 3 / 2 * (s * al) * u.
Proof.
  intros HC. unfold next_along. cbv zeta. fold u c N2 N. apply quotient_below. destruct root_bounds as (NP & NU & NL). destruct shared as (PB & EU & PU & ZB). pose proof u_bounds as UB. pose proof (loss_small HC) as LS.
  replace (u * (8 * (s * (s * al)) - loss / 2)) with (8 * (s * (s * al) * u) - u * loss / 2) in NU by field. replace (u * (5 / 8 * loss + 10 * (s * (s * al)))) with (5 / 8 * (u * loss) + 10 * (s * (s * al) * u)) in NL by ring.
  set (e := s * (s * al) * u) in *. set (P := s * al) in *. set (L := u * loss) in *. set (q := z + 3 / 2 * P * u). assert (QB : -1 <= q <= 17 / 16) by (unfold q; lra).
  assert (EQ : q = z + 3 / 2 * (P * u)) by (unfold q; ring). set (p := P * u) in *. clearbody N c u p e q L. clear N2.
  destruct (Rle_dec 0 q) as [C|C].
  - apply Rle_trans with (q * (1 - (5 / 8 * L + 10 * e))); [|apply Rmult_le_compat_l; lra]. assert (q * (5 / 8 * L + 10 * e) <= 17 / 16 * (5 / 8 * L + 10 * e)) by (apply Rmult_le_compat_r; lra). lra.
  - apply Rle_trans with (q * (1 + 8 * e)); [|apply Rmult_le_compat_neg_l; lra]. assert (- q * (8 * e) <= 1 * (8 * e)) by (apply Rmult_le_compat_r; lra). lra.
Qed.
(** ... but away from it when the damping is too small for the step. *)
Lemma retreats : z <= - (1 / 2) -> al <= s ^ 5 / 500 -> next_along al s z <= z - s ^ 6 / 4000 * u.
Proof.
  intros HC HS. unfold next_along. cbv zeta. fold u c N2 N. apply quotient_below. destruct root_bounds as (NP & NU & NL). destruct shared as (PB & EU & PU & ZB). pose proof u_bounds as UB. pose proof loss_bounds as LB.
  assert (P6 : s * al <= s ^ 6 / 500) by (replace (s ^ 6 / 500) with (s * (s ^ 5 / 500)) by field; apply Rmult_le_compat_l; lra).
  assert (S6 : 0 <= s ^ 6 <= 1 / 1000). { split; [apply pow_le; lra|]. apply Rle_trans with ((1 / 32) ^ 6); [apply pow_incr; lra|lra]. }
  assert (L1 : u * (s ^ 6 / 73) <= u * loss) by (apply Rmult_le_compat_l; lra). assert (P1 : s * al * u <= s ^ 6 / 500 * u) by (apply Rmult_le_compat_r; lra).
  assert (U6 : 0 <= s ^ 6 * u <= 1 / 1000) by (split; [apply Rmult_le_pos; lra|apply Rle_trans with (s ^ 6 * 1); [apply Rmult_le_compat_l; lra|lra]]).
  replace (u * (8 * (s * (s * al)) - loss / 2)) with (8 * (s * (s * al) * u) - u * loss / 2) in NU by field.
  replace (u * (s ^ 6 / 73)) with (s ^ 6 * u / 73) in L1 by field. replace (s ^ 6 / 500 * u) with (s ^ 6 * u / 500) in P1 by field. replace (s ^ 6 / 4000 * u) with (s ^ 6 * u / 4000) by field.
  set (g := s ^ 6 * u) in *. set (e := s * (s * al) * u) in *. set (p := s * al * u) in *. set (L := u * loss) in *. clearbody N c u p e L g. clear N2.
  apply Rle_trans with ((z - g / 4000) * (1 - 59 / 10000 * g)); [|apply Rmult_le_compat_neg_l; lra].
  assert (1 / 2 * (59 / 10000 * g) <= - z * (59 / 10000 * g)) by (apply Rmult_le_compat_r; lra). assert (0 <= g / 4000 * (59 / 10000 * g)) by (apply Rmult_le_pos; lra). lra.
Qed.
End Estimates.
