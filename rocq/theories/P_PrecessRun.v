(** Consequences of the closed form: the angle to the field and the accuracy of the precession. *)
From Verif Require Import P_Alone P_RunProps P_RunEx P_PimmProps P_Converge P_ConvergeRun.
From Verif Require Export P_Precess.
From Coq Require Import Reals List Lra Lia Psatz.
Import ListNotations.
Open Scope R_scope.

(** ** The amplification *)
Lemma gain2_pos r z : 0 < gain2 r z.
Proof.
  assert (Y : 0 <= z ^ 2) by nra.
  assert (G : 0 < 1 - z ^ 6 / 72 + z ^ 8 / 576).
  { set (y := z ^ 2) in *. replace (z ^ 6) with (y ^ 3) by (unfold y; ring). replace (z ^ 8) with (y ^ 4) by (unfold y; ring).
    assert (E : 0 < y ^ 4 - 8 * y ^ 3 + 576).
    { destruct (Rlt_dec y 8) as [L|L].
      - replace (y ^ 4 - 8 * y ^ 3 + 576) with ((y ^ 2 - 4 * y - 8) ^ 2 + (512 - 64 * y)) by ring. pose proof (pow2_ge_0 (y ^ 2 - 4 * y - 8)). lra.
      - replace (y ^ 4 - 8 * y ^ 3 + 576) with (y ^ 3 * (y - 8) + 576) by ring. assert (0 <= y ^ 3) by (apply pow_le; lra). assert (0 <= y ^ 3 * (y - 8)) by (apply Rmult_le_pos; lra). lra. }
    lra. }
  destruct r; cbn [gain2]; try exact G; [|nra]. assert (0 <= z ^ 4) by (replace (z ^ 4) with ((z ^ 2) ^ 2) by ring; apply pow2_ge_0). lra.
Qed.
Lemma rk4_gain_below r z : r = RunSingle \/ r = RunMulti -> (gain2 r z < 1 <-> z <> 0 /\ z ^ 2 < 8).
Proof.
  intros Hr. assert (E : gain2 r z - 1 = (z ^ 2) ^ 3 * (z ^ 2 - 8) / 576) by (destruct Hr as [-> | ->]; cbn [gain2]; field).
  assert (Y : 0 <= z ^ 2) by nra. split.
  - intros H. assert (N : z <> 0) by (intros ->; replace (0 ^ 2) with 0 in E by ring; lra). split; [exact N|].
    assert (P : 0 < (z ^ 2) ^ 3) by (apply pow_lt; nra). nra.
  - intros [N H]. assert (P : 0 < (z ^ 2) ^ 3) by (apply pow_lt; nra). nra.
Qed.
Lemma other_gain_above r z : r = RunHeun \/ r = RunEulerHeun -> z <> 0 -> 1 < gain2 r z.
Proof.
  intros [-> | ->] Hz; cbn [gain2]; [|nra]. assert (0 < z ^ 4) by (replace (z ^ 4) with ((z * z) * (z * z)) by ring; assert (0 < z * z) by nra; nra). lra.
Qed.

(** ** The component along the field *)
Lemma squash_arg q g k : 0 < g -> -1 <= q <= 1 -> 0 < q * q + g ^ k * (1 - q * q).
Proof.
  intros Hg Hq. assert (P : 0 < g ^ k) by (apply pow_lt; exact Hg). destruct (Req_dec q 0) as [->|N]; [nra|]. assert (0 < q * q) by nra. assert (0 <= g ^ k * (1 - q * q)) by (apply Rmult_le_pos; nra). lra.
Qed.
Section Gyro.
Context (r : runner) (dt : R) (s : nat -> junction) (N p : nat) (l : layer) (h : R) (n : cvec).
Context (U : Unit n) (HD : 0 <= dt) (Um : Unit (l_mag l)) (HG : gyroscope l h n) (Hr : r = RunSingle -> length (j_layers (s 0%nat)) = 1%nat).
Context (HTr : trajectory r dt s N) (Hp : nth_error (j_layers (s 0%nat)) p = Some l).
Let z := gamma0 * h * dt.
Let q := Dot n (l_mag l).
Lemma gyro_along k lk : (k <= N)%nat -> nth_error (j_layers (s k)) p = Some lk ->
  Unit (l_mag lk) /\ Dot n (l_mag lk) = squash q (gain2 r z) k.
Proof.
  intros Hk Hlk. pose proof (gyro_trajectory r dt s N p l h n U HD Um HG Hr HTr Hp k lk Hk Hlk) as H. fold z in H.
  set (a := fst (cpow (fst (gain r z)) (snd (gain r z)) k)) in *. set (b := snd (cpow (fst (gain r z)) (snd (gain r z)) k)) in *.
  assert (E : Norm2 (spiral n a b (l_mag l)) = q * q + (gain2 r z) ^ k * (1 - q * q)).
  { rewrite spiral_norm by exact U. fold q. unfold Unit in Um. rewrite Um. unfold a, b. rewrite cpow_norm, gain_norm. ring. }
  pose proof (unit_dot_bounds n (l_mag l) U Um) as B. fold q in B. pose proof (squash_arg q (gain2 r z) k (gain2_pos r z) B) as P.
  assert (NZ : spiral n a b (l_mag l) <> Zero) by (intros X; rewrite X in E; unfold Norm2, Dot, Zero in E; lra).
  destruct H as [[X _]|[_ X]]; [contradiction|]. rewrite X. split.
  - rewrite <- vnormalize_nonzero by exact NZ. apply vnormalize_unit. exact NZ.
  - assert (D : forall k v, Dot n (Scal k v) = k * Dot n v) by (intros c v; destruct n as [n1 n2 n3], v as [v1 v2 v3]; unfold Dot, Scal; ring).
    rewrite D, spiral_along by exact U. fold q. unfold squash, Norm. rewrite E. unfold Rdiv. ring.
Qed.
End Gyro.
Lemma squash_inside q g k : 0 < g -> -1 < q < 1 -> q <> 0 -> 0 < squash q g k * squash q g k < 1.
Proof.
  intros Hg Hq Nq. pose proof (squash_arg q g k Hg ltac:(lra)) as P. assert (PG : 0 < g ^ k) by (apply pow_lt; exact Hg).
  assert (E : squash q g k * squash q g k = (q * q) / (q * q + g ^ k * (1 - q * q))).
  { unfold squash. rewrite <- (sqrt_sqrt (q * q + g ^ k * (1 - q * q))) at 3 by lra. pose proof (sqrt_lt_R0 _ P). field. lra. }
  rewrite E. assert (0 < q * q) by nra. split; [apply Rdiv_lt_0_compat; lra|]. apply Rmult_lt_reg_r with (q * q + g ^ k * (1 - q * q)); [exact P|].
  unfold Rdiv. rewrite Rmult_assoc, Rinv_l by lra. assert (0 < g ^ k * (1 - q * q)) by (apply Rmult_lt_0_compat; nra). lra.
Qed.
Lemma squash_step q g k : 0 < g -> 0 < q < 1 -> (g < 1 -> squash q g k < squash q g (S k)) /\ (1 < g -> squash q g (S k) < squash q g k).
Proof.
  intros Hg Hq. assert (PG : 0 < g ^ k) by (apply pow_lt; exact Hg). unfold squash.
  pose proof (squash_arg q g k Hg ltac:(lra)) as P1. pose proof (squash_arg q g (S k) Hg ltac:(lra)) as P2. cbn [pow] in *.
  pose proof (sqrt_lt_R0 _ P1) as S1. pose proof (sqrt_lt_R0 _ P2) as S2. assert (Q : 0 < 1 - q * q) by nra. assert (X : 0 < g ^ k * (1 - q * q)) by (apply Rmult_lt_0_compat; lra).
  split; intros H; unfold Rdiv; apply Rmult_lt_compat_l; try lra; apply Rinv_lt_contravar; try (apply Rmult_lt_0_compat; assumption); apply sqrt_lt_1_alt; split; try lra; nra.
Qed.
Lemma squash_opp q g k : squash (- q) g k = - squash q g k.
Proof. unfold squash. replace (- q * - q) with (q * q) by ring. unfold Rdiv. ring. Qed.
(** Repeated amplification below one turns everything to the axis, above one to the plane across it. *)
Lemma squash_limit_axis q g eps : 0 < g < 1 -> 0 < q <= 1 -> 0 < eps -> exists K, forall k, (K <= k)%nat -> 1 - eps < squash q g k <= 1.
Proof.
  intros Hg Hq He. destruct (pow_lt_1_zero g ltac:(rewrite Rabs_pos_eq; lra) (eps * (q * q))) as [K HK]; [apply Rmult_lt_0_compat; nra|].
  exists K. intros k Hk. specialize (HK k Hk). assert (PG : 0 < g ^ k) by (apply pow_lt; lra). rewrite Rabs_pos_eq in HK by lra.
  pose proof (squash_arg q g k ltac:(lra) ltac:(lra)) as P. pose proof (sqrt_lt_R0 _ P) as S1. set (w := q * q + g ^ k * (1 - q * q)) in *.
  assert (GQ : 0 <= g ^ k * (1 - q * q)) by (apply Rmult_le_pos; nra). assert (W : q * q <= w) by (unfold w; lra).
  assert (W2 : w < q * q + eps * (q * q)). { unfold w. assert (g ^ k * (1 - q * q) <= g ^ k * 1) by (apply Rmult_le_compat_l; nra). lra. }
  pose proof (sqrt_sqrt w ltac:(lra)) as SQ. unfold squash. fold w.
  assert (L : q <= sqrt w) by (rewrite <- (sqrt_square q) by lra; apply sqrt_le_1_alt; exact W).
  split.
  - apply Rmult_lt_reg_r with (sqrt w); [exact S1|]. unfold Rdiv. rewrite Rmult_assoc, Rinv_l by lra.
    assert (sqrt w < q * (1 + eps)). { apply Rsqr_incrst_0; [unfold Rsqr; rewrite SQ; nra|lra|nra]. }
    destruct (Rle_dec 1 eps); [nra|]. nra.
  - apply Rmult_le_reg_r with (sqrt w); [exact S1|]. unfold Rdiv. rewrite Rmult_assoc, Rinv_l by lra. lra.
Qed.

(** ** The exact precession *)
Lemma turn_unit n theta m : Unit n -> Unit m -> Unit (turn n theta m).
Proof.
  intros Un Um. unfold Unit, turn. rewrite spiral_norm by exact Un. unfold Unit in Um. rewrite Um. pose proof (sin2_cos2 theta) as S. unfold Rsqr in S. replace (cos theta * cos theta + sin theta * sin theta) with 1 by lra. ring.
Qed.
Lemma line_slope w t : derivable_pt_lim (fun s => w * s) t w.
Proof. pose proof (derivable_pt_lim_scal id w t 1 (derivable_pt_lim_id t)) as D. rewrite Rmult_1_r in D. exact D. Qed.
Lemma vderiv_turn n w m (v : R -> cvec) t : Unit n -> (forall s, v s = turn n (w * s) m) -> vderiv v t (Scal w (Cross n (v t))).
Proof.
  intros U HU. set (k := Dot n m).
  assert (EX : forall s, v s = Plus (Scal (cos (w * s)) (Minus m (Scal k n))) (Plus (Scal (sin (w * s)) (Cross n m)) (Scal k n))).
  { intros s. rewrite (HU s). unfold turn, spiral. fold k. generalize (Minus m (Scal k n)) (Cross n m). intros [a1 a2 a3] [b1 b2 b3]. destruct n as [n1 n2 n3]. unfold Plus, Scal. apply vec_eq; ring. }
  assert (EC : Cross n (v t) = Plus (Scal (cos (w * t)) (Cross n m)) (Scal (sin (w * t)) (Minus (Scal k n) m))).
  { rewrite (HU t). unfold turn. rewrite spiral_cross by exact U. reflexivity. }
  pose proof (line_slope w t) as DL.
  assert (DC : derivable_pt_lim (fun s => cos (w * s)) t (- sin (w * t) * w)) by (apply (derivable_pt_lim_comp (fun s => w * s) cos); [exact DL|apply derivable_pt_lim_cos]).
  assert (DS : derivable_pt_lim (fun s => sin (w * s)) t (cos (w * t) * w)) by (apply (derivable_pt_lim_comp (fun s => w * s) sin); [exact DL|apply derivable_pt_lim_sin]).
  assert (G : forall A B C : R, derivable_pt_lim (fun s => cos (w * s) * A + (sin (w * s) * B + C)) t (- sin (w * t) * w * A + (cos (w * t) * w * B + 0))).
  { intros A B C. apply (derivable_pt_lim_plus (fun s => cos (w * s) * A)).
    - apply derivable_pt_lim_ext with (f := fun s => A * cos (w * s)); [intros; ring|]. replace (- sin (w * t) * w * A) with (A * (- sin (w * t) * w)) by ring. apply (derivable_pt_lim_scal (fun s => cos (w * s))). exact DC.
    - apply (derivable_pt_lim_plus (fun s => sin (w * s) * B)); [|apply derivable_pt_lim_const].
      apply derivable_pt_lim_ext with (f := fun s => B * sin (w * s)); [intros; ring|]. replace (cos (w * t) * w * B) with (B * (cos (w * t) * w)) by ring. apply (derivable_pt_lim_scal (fun s => sin (w * s))). exact DS. }
  rewrite EC. rewrite !Minus_def in *.
  set (A := CV (cx m - cx (Scal k n)) (cy m - cy (Scal k n)) (cz m - cz (Scal k n))) in *. set (B := Cross n m) in *. set (C := Scal k n) in *.
  split; [|split].
  - apply derivable_pt_lim_ext with (f := fun s => cos (w * s) * cx A + (sin (w * s) * cx B + cx C)); [intros s; rewrite (EX s); destruct A, B, C; reflexivity|].
    match goal with |- derivable_pt_lim _ _ ?d => replace d with (- sin (w * t) * w * cx A + (cos (w * t) * w * cx B + 0)); [apply G|] end. unfold A. destruct B, C. unfold Scal, Plus. cbn. ring.
  - apply derivable_pt_lim_ext with (f := fun s => cos (w * s) * cy A + (sin (w * s) * cy B + cy C)); [intros s; rewrite (EX s); destruct A, B, C; reflexivity|].
    match goal with |- derivable_pt_lim _ _ ?d => replace d with (- sin (w * t) * w * cy A + (cos (w * t) * w * cy B + 0)); [apply G|] end. unfold A. destruct B, C. unfold Scal, Plus. cbn. ring.
  - apply derivable_pt_lim_ext with (f := fun s => cos (w * s) * cz A + (sin (w * s) * cz B + cz C)); [intros s; rewrite (EX s); destruct A, B, C; reflexivity|].
    match goal with |- derivable_pt_lim _ _ ?d => replace d with (- sin (w * t) * w * cz A + (cos (w * t) * w * cz B + 0)); [apply G|] end. unfold A. destruct B, C. unfold Scal, Plus. cbn. ring.
Qed.

Lemma turn_solves ls T h n u : Unit n -> (forall p l, nth_error ls p = Some l -> gyroscope l h n) ->
  (forall p t, u p t = turn n (gamma0 * h * t) (u p 0)) ->
  solves ls T u (fun p t => Scal (gamma0 * h) (Cross n (u p t))).
Proof.
  intros U HG HU p l t Hp _. destruct (HG p l Hp) as [_ F]. split.
  - apply (feels_rhs _ _ _ _ _ _ _ (F _ _)). rewrite field_axis. reflexivity.
  - exact (vderiv_turn n (gamma0 * h) (u p 0) (u p) t U (HU p)).
Qed.

(** ** Fourth order *)
Lemma cos_taylor z : 0 <= z <= 3 / 2 -> 0 <= 1 - z ^ 2 / 2 + z ^ 4 / 24 - cos z <= z ^ 6 / 720.
Proof.
  intros H. pose proof PI2_3_2 as P. destruct (cos_bound z 0) as [_ B1]; [lra|lra|]. destruct (cos_bound z 1) as [B2 _]; [lra|lra|].
  unfold cos_approx in B1, B2. cbn [Nat.mul Nat.add sum_f_R0] in B1, B2. unfold cos_term in B1, B2. cbn [Nat.mul Nat.add fact pow INR] in B1, B2. cbn [pow].
  change (fact (2 * 0)) with 1%nat in *. unfold fact in *. cbn [Nat.mul Nat.add INR] in *. split; [|]; (try lra); nra.
Qed.
Lemma sin_taylor z : 0 <= z <= 3 / 2 -> 0 <= sin z - (z - z ^ 3 / 6) <= z ^ 5 / 120.
Proof.
  intros H. pose proof PI2_3_2 as P. destruct (sin_bound z 0) as [B2 B1]; [lra|lra|].
  unfold sin_approx in B1, B2. cbn [Nat.mul Nat.add sum_f_R0] in B1, B2. unfold sin_term in B1, B2. cbn [Nat.mul Nat.add fact pow INR] in B1, B2. cbn [pow].
  unfold fact in *. cbn [Nat.mul Nat.add INR] in *. split; lra.
Qed.
Lemma spiral_minus n a b x y : spiral n a b (Minus x y) = Minus (spiral n a b x) (spiral n a b y).
Proof. destruct n as [n1 n2 n3], x as [x1 x2 x3], y as [y1 y2 y3]. unfold spiral, Minus, Plus, Scal, Dot, Cross. apply vec_eq; ring. Qed.
Lemma spiral_contract n a b x : Unit n -> a * a + b * b <= 1 -> Norm (spiral n a b x) <= Norm x.
Proof.
  intros U H. unfold Norm. apply sqrt_le_1_alt. rewrite spiral_norm by exact U. pose proof (Lagrange n x) as L. unfold Unit in U. rewrite U in L.
  pose proof (Norm2_nonneg (Cross n x)) as P. assert (X : 0 <= Norm2 x - Dot n x * Dot n x) by lra. nra.
Qed.
Lemma turn_add n a b m : Unit n -> turn n a (turn n b m) = turn n (a + b) m.
Proof. intros U. unfold turn. rewrite spiral_compose by exact U. rewrite cos_plus, sin_plus. f_equal; ring. Qed.
Lemma spiral_power_error n a b th m k : Unit n -> Unit m -> a * a + b * b <= 1 ->
  Distance (spiral n (fst (cpow a b k)) (snd (cpow a b k)) m) (turn n (INR k * th) m) <= INR k * (Rabs (a - cos th) + Rabs (b - sin th)).
Proof.
  intros Un Um H. induction k as [|k IH].
  - cbn [cpow fst snd INR]. rewrite spiral_one. rewrite !Rmult_0_l. unfold turn. rewrite cos_0, sin_0, spiral_one, Distance_refl. apply Rle_refl.
  - rewrite cpow_S, S_INR. cbn [fst snd].
    rewrite <- spiral_compose by exact Un. replace ((INR k + 1) * th) with (th + INR k * th) by ring. rewrite <- turn_add by exact Un.
    set (v := spiral n (fst (cpow a b k)) (snd (cpow a b k)) m) in *. set (u := turn n (INR k * th) m) in *.
    assert (Uu : Unit u) by (apply turn_unit; assumption).
    pose proof (Distance_triangle (spiral n a b v) (spiral n a b u) (turn n th u)) as TR.
    assert (A : Distance (spiral n a b v) (spiral n a b u) <= Distance v u).
    { unfold Distance. rewrite <- spiral_minus. apply spiral_contract; assumption. }
    pose proof (spiral_dist n a b (cos th) (sin th) u Un Uu) as B. fold (turn n th u) in B. clearbody v u.
    generalize dependent (turn n th u). generalize dependent (spiral n a b v). generalize dependent (spiral n a b u).
    generalize dependent (Rabs (a - cos th) + Rabs (b - sin th)). intros. lra.
Qed.
Lemma normal_near v u w : v <> Zero -> Unit u -> Normalised v w -> Distance w u <= 2 * Distance v u.
Proof.
  intros NZ Uu [[X _]|[_ ->]]; [contradiction|].
  pose proof (Distance_triangle (Scal (/ Norm v) v) v u) as TR. rewrite normal_dist in TR by exact NZ.
  assert (Nu : Norm u = 1) by (apply Norm_unit; exact Uu).
  assert (B : Rabs (Norm v - 1) <= Distance v u).
  { pose proof (Norm_dist v u) as A. pose proof (Norm_dist u v) as B. rewrite (Distance_sym u v) in B. rewrite Nu in A, B. apply Rabs_le. lra. }
  lra.
Qed.
Section Fourth.
Context (r : runner) (dt : R) (s : nat -> junction) (N p : nat) (l : layer) (h : R) (n : cvec).
Context (Hrk : r = RunSingle \/ r = RunMulti) (U : Unit n) (HD : 0 <= dt) (Um : Unit (l_mag l)) (HG : gyroscope l h n) (Hr : r = RunSingle -> length (j_layers (s 0%nat)) = 1%nat).
Context (HTr : trajectory r dt s N) (Hp : nth_error (j_layers (s 0%nat)) p = Some l).
Let z := gamma0 * h * dt.
Context (Hz : 0 <= z <= 3 / 2).
Lemma gyro_fourth k lk : (k <= N)%nat -> nth_error (j_layers (s k)) p = Some lk ->
  Distance (l_mag lk) (turn n (gamma0 * h * (INR k * dt)) (l_mag l)) <= 2 * INR k * (z ^ 5 / 120 + z ^ 6 / 720).
Proof.
  intros Hk Hlk. pose proof (gyro_trajectory r dt s N p l h n U HD Um HG Hr HTr Hp k lk Hk Hlk) as H. fold z in H.
  assert (G2 : gain2 r z <= 1).
  { destruct (Req_dec z 0) as [E0|N0]; [destruct Hrk as [-> | ->]; cbn [gain2]; rewrite E0; lra|]. left. apply rk4_gain_below; [exact Hrk|]. split; [exact N0|]. nra. }
  assert (G : gain r z = (1 - z ^ 2 / 2 + z ^ 4 / 24, z - z ^ 3 / 6)) by (destruct Hrk as [-> | ->]; reflexivity).
  pose proof (gain_norm r z) as GN. rewrite G in H, GN. cbn [fst snd] in H, GN.
  set (a := 1 - z ^ 2 / 2 + z ^ 4 / 24) in *. set (b := z - z ^ 3 / 6) in *.
  set (v := spiral n (fst (cpow a b k)) (snd (cpow a b k)) (l_mag l)) in *.
  assert (NZ : v <> Zero).
  { intros X. assert (E : Norm2 v = Dot n (l_mag l) * Dot n (l_mag l) + (gain2 r z) ^ k * (1 - Dot n (l_mag l) * Dot n (l_mag l))).
    { unfold v. rewrite spiral_norm by exact U. unfold Unit in Um. rewrite Um, cpow_norm, GN. ring. }
    pose proof (squash_arg (Dot n (l_mag l)) (gain2 r z) k (gain2_pos r z) (unit_dot_bounds n (l_mag l) U Um)) as P.
    rewrite X in E. unfold Norm2, Dot at 1, Zero in E. cbn in E. lra. }
  replace (gamma0 * h * (INR k * dt)) with (INR k * z) by (unfold z; ring).
  assert (AB : a * a + b * b <= 1) by lra.
  pose proof (spiral_power_error n a b z (l_mag l) k U Um AB) as PE. fold v in PE.
  pose proof (normal_near v (turn n (INR k * z) (l_mag l)) (l_mag lk) NZ (turn_unit _ _ _ U Um) H) as NN.
  pose proof (cos_taylor z Hz) as CT. pose proof (sin_taylor z Hz) as ST.
  assert (E : Rabs (a - cos z) + Rabs (b - sin z) <= z ^ 5 / 120 + z ^ 6 / 720).
  { unfold a, b. rewrite Rabs_pos_eq by lra. rewrite Rabs_left1 by lra. lra. }
  pose proof (pos_INR k) as PK. nra.
Qed.
End Fourth.

(** ** Simulations *)
Lemma quiet_used mode N j j0 r used : (forall l, In l (j_layers j) -> quiet l) -> selects mode N j j0 r used -> r = runner_table (layerNo j) mode.
Proof.
  intros HQ (_ & _ & (_ & HM) & ->). rewrite HM; [reflexivity|]. intros (l & Hl & [A|A]); destruct (HQ l Hl) as [B C]; congruence.
Qed.
Section Run.
Context (T dt wf : R) (e : bool) (mode : solver_mode) (j j' : junction) (p : nat) (l l' : layer) (h : R) (n : cvec).
Context (HD : 0 < dt) (HQ : forall x, In x (j_layers j) -> quiet x) (E : runSimulation T dt wf e mode j = (j', Ok tt)).
Context (Hp : nth_error (j_layers j) p = Some l) (Hp' : nth_error (j_layers j') p = Some l').
Context (U : Unit n) (Um : Unit (l_mag l)) (HG : gyroscope l h n).
Let r := runner_table (layerNo j) mode.
Let z := gamma0 * h * dt.
Lemma gyro_run : exists N, IntegerPart (T / dt) N /\
  Normalised (spiral n (fst (cpow (fst (gain r z)) (snd (gain r z)) N)) (snd (cpow (fst (gain r z)) (snd (gain r z)) N)) (l_mag l)) (l_mag l') /\
  Unit (l_mag l') /\ Dot n (l_mag l') = squash (Dot n (l_mag l)) (gain2 r z) N /\
  (mode = RK4 -> 0 <= z <= 3 / 2 -> Distance (l_mag l') (turn n (gamma0 * h * (INR N * dt)) (l_mag l)) <= 2 * INR N * (z ^ 5 / 120 + z ^ 6 / 720)).
Proof.
  destruct (run_sound _ _ _ _ _ _ _ E) as (N & w & j0 & r' & used & s & rows & HC & HSel & Hs & Htr & _ & _ & Ej & _).
  destruct (quiet_run mode N j j0 r' used HQ HSel) as [-> H1]. pose proof (quiet_used mode N j j r' used HQ HSel) as X. fold r in X. subst r'.
  assert (Hl' : nth_error (j_layers (s N)) p = Some l') by (rewrite Ej in Hp'; exact Hp').
  assert (Hl : nth_error (j_layers (s 0%nat)) p = Some l) by (rewrite Hs; exact Hp).
  assert (HR : r = RunSingle -> length (j_layers (s 0%nat)) = 1%nat) by (rewrite Hs; exact H1).
  exists N. split; [apply HC|]. split; [apply (gyro_trajectory r dt s N p l h n U ltac:(lra) Um HG HR Htr Hl N l' (le_n N) Hl')|].
  destruct (gyro_along r dt s N p l h n U ltac:(lra) Um HG HR Htr Hl N l' (le_n N) Hl') as [A B]. split; [exact A|]. split; [exact B|].
  intros HM Hz. assert (Hrk : r = RunSingle \/ r = RunMulti). { unfold r. rewrite HM. cbn. destruct (layerNo j) as [|[|k]]; auto. }
  exact (gyro_fourth r dt s N p l h n Hrk U ltac:(lra) Um HG HR Htr Hl Hz N l' (le_n N) Hl').
Qed.
End Run.

(** ** Which layers are gyroscopes *)
Lemma bare_gyroscope l H h n : bare l H -> H = Scal h n -> gyroscope l h n.
Proof.
  intros (HQ & D & S1 & S2 & A & B & C & E1 & E2 & HI) ->. split; [exact HQ|]. intros b w. repeat (split; [assumption|]).
  intros t m. exists (FI (Scal h n) Zero Zero Zero 0 0 0 0 0 Zero Zero). split; [apply HI|].
  unfold H_eff, IEC_total, IDMI_total, H_anis, dipole_total, H_iec, H_idmi, H_tensor. rewrite C, E1, E2. cbn [fi_ext fi_oe fi_dmi fi_res fi_K fi_Jb fi_Jt fi_J2b fi_J2t fi_Db fi_Dt].
  unfold null_tensor. generalize (Scal h n) (l_anis l). intros [h1 h2 h3] [a1 a2 a3]. destruct m, b, w. unfold Rdiv. vsimp. cbn -[Rmult Rplus Rdiv Rinv gamma0 mu0 Ropp]. apply vec_eq; cbn -[Rmult Rplus Rdiv Rinv gamma0 mu0 Ropp]; ring.
Qed.
(** ** Where the angle goes *)
Lemma unit_sq q : -1 < q < 1 -> q <> 0 -> 0 < q < 1 \/ 0 < - q < 1.
Proof. intros. destruct (Rtotal_order q 0) as [|[|]]; [right|exfalso|left]; lra. Qed.
Section Angle.
Context (r : runner) (dt : R) (s : nat -> junction) (N p : nat) (l : layer) (h : R) (n : cvec).
Context (U : Unit n) (HD : 0 <= dt) (Um : Unit (l_mag l)) (HG : gyroscope l h n) (Hr : r = RunSingle -> length (j_layers (s 0%nat)) = 1%nat).
Context (HTr : trajectory r dt s N) (Hp : nth_error (j_layers (s 0%nat)) p = Some l).
Let z := gamma0 * h * dt.
Let q := Dot n (l_mag l).
Context (Q : -1 < q < 1) (Q0 : q <> 0).
Lemma squash_grows k : gain2 r z < 1 -> Rabs (squash q (gain2 r z) k) < Rabs (squash q (gain2 r z) (S k)).
Proof.
  intros H. pose proof (gain2_pos r z) as P. assert (POS : forall x i, 0 < x < 1 -> 0 < squash x (gain2 r z) i).
  { intros x i Hx. unfold squash. apply Rdiv_lt_0_compat; [lra|]. apply sqrt_lt_R0. apply squash_arg; lra. }
  destruct (unit_sq q Q Q0) as [C|C].
  - rewrite !Rabs_pos_eq by (left; apply POS; exact C). apply squash_step; assumption.
  - rewrite <- (Ropp_involutive q), !(squash_opp (- q)), !Rabs_Ropp, !Rabs_pos_eq by (left; apply POS; exact C). apply squash_step; assumption.
Qed.
Lemma squash_shrinks k : 1 < gain2 r z -> Rabs (squash q (gain2 r z) (S k)) < Rabs (squash q (gain2 r z) k).
Proof.
  intros H. pose proof (gain2_pos r z) as P. assert (POS : forall x i, 0 < x < 1 -> 0 < squash x (gain2 r z) i).
  { intros x i Hx. unfold squash. apply Rdiv_lt_0_compat; [lra|]. apply sqrt_lt_R0. apply squash_arg; lra. }
  destruct (unit_sq q Q Q0) as [C|C].
  - rewrite !Rabs_pos_eq by (left; apply POS; exact C). apply squash_step; assumption.
  - rewrite <- (Ropp_involutive q), !(squash_opp (- q)), !Rabs_Ropp, !Rabs_pos_eq by (left; apply POS; exact C). apply squash_step; assumption.
Qed.
Lemma gyro_aligns k lk lk' : (k < N)%nat -> nth_error (j_layers (s k)) p = Some lk -> nth_error (j_layers (s (S k))) p = Some lk' ->
  gain2 r z < 1 -> Rabs (Dot n (l_mag lk)) < Rabs (Dot n (l_mag lk')) < 1 /\ 0 < Dot n (l_mag lk) * Dot n (l_mag lk').
Proof.
  intros Hk H1 H2 HG1. destruct (gyro_along r dt s N p l h n U HD Um HG Hr HTr Hp k lk ltac:(lia) H1) as [_ A]. destruct (gyro_along r dt s N p l h n U HD Um HG Hr HTr Hp (S k) lk' ltac:(lia) H2) as [_ B].
  fold q z in A, B. rewrite A, B. pose proof (gain2_pos r z) as P. split; [split; [apply squash_grows; exact HG1|]|].
  - destruct (squash_inside q (gain2 r z) (S k) P Q Q0) as [X Y]. apply Rabs_def1; nra.
  - pose proof (sqrt_lt_R0 _ (squash_arg q (gain2 r z) k P ltac:(lra))) as S1. pose proof (sqrt_lt_R0 _ (squash_arg q (gain2 r z) (S k) P ltac:(lra))) as S2.
    unfold squash. replace (q / _ * (q / _)) with (q * q / (sqrt (q * q + gain2 r z ^ k * (1 - q * q)) * sqrt (q * q + gain2 r z ^ S k * (1 - q * q)))) by (field; lra).
    apply Rdiv_lt_0_compat; [nra|]. apply Rmult_lt_0_compat; assumption.
Qed.
Lemma gyro_leaves k lk lk' : (k < N)%nat -> nth_error (j_layers (s k)) p = Some lk -> nth_error (j_layers (s (S k))) p = Some lk' ->
  1 < gain2 r z -> Rabs (Dot n (l_mag lk')) < Rabs (Dot n (l_mag lk)).
Proof.
  intros Hk H1 H2 HG1. destruct (gyro_along r dt s N p l h n U HD Um HG Hr HTr Hp k lk ltac:(lia) H1) as [_ A]. destruct (gyro_along r dt s N p l h n U HD Um HG Hr HTr Hp (S k) lk' ltac:(lia) H2) as [_ B].
  fold q z in A, B. rewrite A, B. apply squash_shrinks. exact HG1.
Qed.
End Angle.
(** The number of steps after which the angle is closed depends on the starting angle and the step only. *)
Lemma aligned_limit r z q eps : r = RunSingle \/ r = RunMulti -> z <> 0 -> z ^ 2 < 8 -> 0 < q <= 1 -> 0 < eps -> exists K, forall dt s N p l lN h n,
  (K <= N)%nat -> Unit n -> 0 <= dt -> Unit (l_mag l) -> gyroscope l h n -> gamma0 * h * dt = z -> Dot n (l_mag l) = q ->
  (r = RunSingle -> length (j_layers (s 0%nat)) = 1%nat) -> trajectory r dt s N -> nth_error (j_layers (s 0%nat)) p = Some l ->
  nth_error (j_layers (s N)) p = Some lN -> 1 - eps < Dot n (l_mag lN) <= 1.
Proof.
  intros Hrk Hz Hz8 Hq He. assert (HG1 : gain2 r z < 1) by (apply rk4_gain_below; auto).
  destruct (squash_limit_axis q (gain2 r z) eps) as [K HK]; [pose proof (gain2_pos r z); lra|exact Hq|exact He|].
  exists K. intros dt s N p l lN h n HN U HD Um HG Ez Eq Hr HTr Hp HpN.
  destruct (gyro_along r dt s N p l h n U HD Um HG Hr HTr Hp N lN (le_n N) HpN) as [_ A]. rewrite Ez, Eq in A. rewrite A. apply HK. exact HN.
Qed.
(** ** A tilted pair *)
Definition ex_tilt (id : string) : layer := set_l_mag (CV (3 / 5) 0 (4 / 5)) (ex_spin id).
Definition ex_top : junction := ex_plain_pair (ex_tilt "a") (ex_tilt "b").
Lemma tilt_bare id : bare (ex_tilt id) (CV 0 0 (/ gamma0)).
Proof. unfold bare. repeat split; cbn; lra. Qed.
Lemma tilt_gyro id : gyroscope (ex_tilt id) (/ gamma0) (CV 0 0 1).
Proof. apply (bare_gyroscope _ (CV 0 0 (/ gamma0))); [apply tilt_bare|]. unfold Scal. apply vec_eq; ring. Qed.
Lemma tilt_runnable id : runnable (ex_tilt id).
Proof.
  split; [|split; [reflexivity|discriminate]]. intros t m b top. apply plain_total; try reflexivity; try (cbn; lra). intros s. exists (FI (CV 0 0 (/ gamma0)) Zero Zero Zero 0 0 0 0 0 Zero Zero). repeat split.
Qed.
Lemma top_runs e mode n : (0 < n < 4294967296)%Z -> exists j', runSimulation 1 (/ IZR n) (/ IZR n) e mode ex_top = (j', Ok tt).
Proof.
  intros Hn. assert (P : 1 <= IZR n < 4294967296) by (split; [apply IZR_le; lia|apply IZR_lt; lia]). pose proof (Rinv_0_lt_compat (IZR n) ltac:(lra)).
  assert (EN : INR (Z.to_nat n) = IZR n) by (rewrite INR_IZR_INZ, Z2Nat.id by lia; reflexivity).
  apply (run_exists _ _ _ _ _ _ (Z.to_nat n) 1); [lra|discriminate|discriminate| |lia|].
  - assert (A : 1 / (/ IZR n) = IZR n) by (field; lra). assert (B : / IZR n / / IZR n = 1) by (field; lra).
    repeat split; try lra; rewrite ?A, ?B; try lra; left; rewrite ?EN; cbn [INR]; lra.
  - intros l Hl. assert (X : exists id, l = ex_tilt id) by (destruct Hl as [<-|[<-|[]]]; eauto). destruct X as [id ->]. apply tilt_runnable.
Qed.
