(** Damped relaxation: one step of the default solvers in coordinates around the field. *)
From Verif Require Import P_RunProps P_LayerProps P_Step4 P_Converge P_Metric P_Precess P_PrecessRun.
From Verif Require Export S_Relax.
From Coq Require Import Reals Lra Lia Psatz.
Open Scope R_scope.

(** ** Coordinates *)
Lemma tilted_def n m a b c : tilted n m a b c = Plus (Scal (c - a * Dot n m) n) (Plus (Scal a m) (Scal b (Cross n m))).
Proof. unfold tilted. rewrite Minus_def. generalize (Dot n m) (Cross n m). intros k [p q r]. destruct n as [n1 n2 n3], m as [m1 m2 m3]. unfold Plus, Scal; cbn [cx cy cz]. apply vec_eq; ring. Qed.
Lemma tilted_start n m : tilted n m 1 0 (Dot n m) = m.
Proof. rewrite tilted_def. generalize (Dot n m) (Cross n m). intros k [p q r]. destruct n as [n1 n2 n3], m as [m1 m2 m3]. unfold Plus, Scal. apply vec_eq; ring. Qed.
Lemma tilted_along n m a b c : Unit n -> Dot n (tilted n m a b c) = c.
Proof.
  intros U. rewrite tilted_def. assert (X : forall k v, Dot n (Plus (Scal k n) (Plus (Scal a m) (Scal b v))) = k * Norm2 n + (a * Dot n m + b * Dot n v)).
  { intros k v. destruct n as [n1 n2 n3], m as [m1 m2 m3], v as [c1 c2 c3]. unfold Norm2, Dot, Plus, Scal. ring. }
  rewrite X, Dot_Cross_l. unfold Unit in U. rewrite U. ring.
Qed.
Lemma tilted_cross n m a b c : Unit n -> Cross n (tilted n m a b c) = tilted n m (- b) a 0.
Proof.
  intros U. rewrite !tilted_def. assert (X : forall k v, Cross n (Plus (Scal k n) (Plus (Scal a m) (Scal b v))) = Plus (Scal a (Cross n m)) (Scal b (Cross n v))).
  { intros k v. destruct n as [n1 n2 n3], m as [m1 m2 m3], v as [c1 c2 c3]. unfold Cross, Plus, Scal. apply vec_eq; ring. }
  rewrite X, (cross_twice n m U), Minus_def. generalize (Dot n m) (Cross n m). intros k [p q r]. destruct n as [n1 n2 n3], m as [m1 m2 m3]. unfold Plus, Scal; cbn [cx cy cz]. apply vec_eq; ring.
Qed.
Lemma tilted_norm n m a b c : Unit n -> Unit m -> Norm2 (tilted n m a b c) = (1 - Dot n m * Dot n m) * (a * a + b * b) + c * c.
Proof.
  intros U V. rewrite tilted_def. assert (A := Dot_Cross_l n m). assert (B := Dot_Cross_r n m). assert (C := Lagrange n m). unfold Unit in U, V. rewrite U, V in C.
  assert (E : forall k, Norm2 (Plus (Scal k n) (Plus (Scal a m) (Scal b (Cross n m)))) =
     a * a * Norm2 m + k * k * Norm2 n + b * b * Norm2 (Cross n m) + 2 * a * k * Dot n m + 2 * a * b * Dot m (Cross n m) + 2 * k * b * Dot n (Cross n m)).
  { intros k. generalize (Cross n m). intros d. destruct n as [n1 n2 n3], m as [m1 m2 m3], d as [c1 c2 c3]. unfold Norm2, Dot, Plus, Scal. ring. }
  rewrite E, A, B, C, U, V. ring.
Qed.
Lemma tilted_plus n m a b c k a' b' c' : Plus (tilted n m a b c) (Scal k (tilted n m a' b' c')) = tilted n m (a + k * a') (b + k * b') (c + k * c').
Proof. rewrite !tilted_def. generalize (Dot n m) (Cross n m). intros d [p q r]. destruct n as [n1 n2 n3], m as [m1 m2 m3]. unfold Plus, Scal. apply vec_eq; ring. Qed.

(** ** The equations in these coordinates *)
Lemma damped_rhs l alpha h n t m b w d : damped_in l alpha h n ->
  (rhs l t m b w d <-> d = Scal (turn_rate alpha h) (Plus (Cross n m) (Scal (- alpha) (Cross m (Cross m n))))).
Proof.
  intros (_ & A & S1 & S2 & M1 & M2 & F).
  assert (P : LLG_plain (l_damping l) m (Scal h n) = Scal (turn_rate alpha h) (Plus (Cross n m) (Scal (- alpha) (Cross m (Cross m n))))).
  { rewrite A. unfold LLG_plain, prefactor, LL, turn_rate. destruct m as [m1 m2 m3], n as [H1 H2 H3]. unfold Cross, Plus, Scal. apply vec_eq; field; nra. }
  split.
  - intros (i & I & _ & _ & D). destruct (F b w t m) as (i' & I' & E).
    assert (i = i') by (rewrite (P_Regular.ins_ok _ _ _ I), (P_Regular.ins_ok _ _ _ I'); reflexivity). subst i'.
    rewrite E in D. inversion D; congruence.
  - intros ->. destruct (F b w t m) as (i & I & E). exists i. split; [exact I|]. split; [exact M1|]. split; [exact M2|]. rewrite E, <- P. apply llg_plain; assumption.
Qed.
Lemma double_cross m n : Cross m (Cross m n) = Minus (Scal (Dot n m) m) (Scal (Norm2 m) n).
Proof. rewrite Minus_def. destruct m as [m1 m2 m3], n as [n1 n2 n3]. unfold Cross, Norm2, Dot, Scal; cbn [cx cy cz]. apply vec_eq; ring. Qed.
Lemma tilted_slope n m alpha v : Unit n -> Unit m ->
  Plus (Cross n (tilted n m (cx v) (cy v) (cz v))) (Scal (- alpha) (Cross (tilted n m (cx v) (cy v) (cz v)) (Cross (tilted n m (cx v) (cy v) (cz v)) n))) =
  let d := slope alpha (1 - Dot n m * Dot n m) v in tilted n m (cx d) (cy d) (cz d).
Proof.
  intros U V. cbv zeta. rewrite double_cross, tilted_along, tilted_norm, tilted_cross by assumption. unfold slope. cbn [cx cy cz]. rewrite !tilted_def, !Minus_def. destruct v as [a b c]; cbn [cx cy cz].
  generalize (Dot n m) (Cross n m). intros k [p q r]. destruct n as [n1 n2 n3], m as [m1 m2 m3]. unfold Plus, Scal; cbn [cx cy cz]. apply vec_eq; ring.
Qed.
Lemma rk4_tilted n w alpha dt m (F : R -> cvec -> cvec -> Prop) t m' : Unit n -> Unit m ->
  (forall s v d, F s v d <-> d = Scal w (Plus (Cross n v) (Scal (- alpha) (Cross v (Cross v n))))) ->
  RK4_scheme F t dt m m' ->
  let c := classical alpha (1 - Dot n m * Dot n m) (w * dt) (CV 1 0 (Dot n m)) in Normalised (tilted n m (cx c) (cy c) (cz c)) m'.
Proof.
  intros U V HF (f1 & f2 & f3 & f4 & F1 & F2 & F3 & F4 & HN). apply HF in F1, F2, F3, F4.
  set (f := fun v => Scal w (Plus (Cross n v) (Scal (- alpha) (Cross v (Cross v n))))) in *.
  set (u := 1 - Dot n m * Dot n m).
  assert (ST : forall k v g, g = f (tilted n m (cx v) (cy v) (cz v)) ->
    let x := Plus (CV 1 0 (Dot n m)) (Scal (k * w) (slope alpha u v)) in Plus m (Scal k g) = tilted n m (cx x) (cy x) (cz x)).
  { intros k v g ->. cbv zeta. unfold f. rewrite (tilted_slope n m alpha v U V). cbv zeta. fold u. rewrite <- (tilted_start n m) at 1.
    generalize (slope alpha u v). intros [a b c]. unfold Plus at 2 3 4, Scal at 3 4 5. cbn [cx cy cz]. rewrite !tilted_def.
    generalize (Dot n m) (Cross n m). intros d [p q r]. destruct n as [n1 n2 n3], m as [m1 m2 m3]. unfold Plus, Scal. apply vec_eq; ring. }
  assert (E1 : f1 = f (tilted n m (cx (CV 1 0 (Dot n m))) (cy (CV 1 0 (Dot n m))) (cz (CV 1 0 (Dot n m))))) by (cbn [cx cy cz]; rewrite tilted_start; exact F1).
  pose proof (ST (dt / 2) _ _ E1) as X2. cbv zeta in X2. rewrite X2 in F2. pose proof (ST (dt / 2) _ _ F2) as X3. cbv zeta in X3. rewrite X3 in F3. pose proof (ST dt _ _ F3) as X4. cbv zeta in X4. rewrite X4 in F4.
  intros c. replace (tilted n m (cx c) (cy c) (cz c)) with (Plus m (Scal (dt / 6) (Sum [f1; Scal 2 f2; Scal 2 f3; f4]))); [exact HN|].
  rewrite E1, F2, F3, F4. clear E1 F1 F2 F3 F4 X2 X3 X4 ST HN HF. unfold f. rewrite !(tilted_slope n m alpha _ U V). cbv zeta. fold u. unfold c, classical.
  replace (dt / 2 * w) with (w * dt / 2) by field. replace (dt * w) with (w * dt) by ring. cbv zeta.
  set (k1 := slope alpha u (CV 1 0 (Dot n m))). set (k2 := slope alpha u (Plus (CV 1 0 (Dot n m)) (Scal (w * dt / 2) k1))).
  set (k3 := slope alpha u (Plus (CV 1 0 (Dot n m)) (Scal (w * dt / 2) k2))). set (k4 := slope alpha u (Plus (CV 1 0 (Dot n m)) (Scal (w * dt) k3))).
  clearbody k1 k2 k3 k4 u. clear f c. rewrite <- (tilted_start n m) at 1. destruct k1 as [a1 b1 c1], k2 as [a2 b2 c2], k3 as [a3 b3 c3], k4 as [a4 b4 c4].
  cbn [Sum fold_right]. unfold Plus at 6 7 8 9 10, Scal at 8 9 10, Zero. cbn [cx cy cz]. rewrite !tilted_def.
  generalize (Dot n m) (Cross n m). intros d [p q r]. destruct n as [n1 n2 n3], m as [m1 m2 m3]. unfold Plus, Scal; cbn [cx cy cz]. apply vec_eq; field.
Qed.
(** One step of either fourth-order solver. *)
Lemma damped_step r t dt j j' p l l' alpha h n : r = RunSingle \/ r = RunMulti -> Unit n -> Unit (l_mag l) -> damped_in l alpha h n ->
  (r = RunSingle -> length (j_layers j) = 1%nat) ->
  run_runner r t dt j = (j', Ok tt) -> nth_error (j_layers j) p = Some l -> nth_error (j_layers j') p = Some l' ->
  let q := Dot n (l_mag l) in let c := classical alpha (1 - q * q) (turn_rate alpha h * dt) (CV 1 0 q) in
  Normalised (tilted n (l_mag l) (cx c) (cy c) (cz c)) (l_mag l').
Proof.
  intros Hrk U V HD Hr E Hp Hp'.
  assert (R : forall b w s v d, rhs l s v b w d <-> d = Scal (turn_rate alpha h) (Plus (Cross n v) (Scal (- alpha) (Cross v (Cross v n))))) by (intros; apply damped_rhs; exact HD).
  destruct Hrk as [-> | ->]; cbn [run_runner] in E.
  - apply single_sound in E. destruct E as (_ & _ & S). specialize (S p l l' Hp Hp'). specialize (Hr eq_refl).
    assert (p = 0%nat). { assert (p < length (j_layers j))%nat by (apply nth_error_Some; congruence). lia. } subst p. destruct S as [S _].
    exact (rk4_tilted n (turn_rate alpha h) alpha dt (l_mag l) _ t (l_mag l') U V (fun s v d => R Zero Zero s v d) S).
  - apply multi_sound in E. destruct E as (_ & _ & S). destruct (S p l l' Hp Hp') as [S' _].
    exact (rk4_tilted n (turn_rate alpha h) alpha dt (l_mag l) _ t (l_mag l') U V (fun s v d => R _ _ s v d) S').
Qed.
Lemma damped_static l l' alpha h n : static l l' -> damped_in l alpha h n -> damped_in l' alpha h n.
Proof. intros (m & c & rp & bf & ->) H. exact H. Qed.
Lemma free_damped l alpha H h n : free_in l alpha H -> H = Scal h n -> damped_in l alpha h n.
Proof.
  intros (HQ & D & S1 & S2 & A & B & C & E1 & E2 & HI) ->. split; [exact HQ|]. repeat (split; [assumption|]).
  intros b w t m. exists (FI (Scal h n) Zero Zero Zero 0 0 0 0 0 Zero Zero). split; [apply HI|].
  unfold H_eff, IEC_total, IDMI_total, H_anis, dipole_total, H_iec, H_idmi, H_tensor. rewrite C, E1, E2. cbn [fi_ext fi_oe fi_dmi fi_res fi_K fi_Jb fi_Jt fi_J2b fi_J2t fi_Db fi_Dt].
  unfold null_tensor. generalize (Scal h n) (l_anis l). intros [h1 h2 h3] [a1 a2 a3]. destruct m, b, w. unfold Rdiv. vsimp. cbn -[Rmult Rplus Rdiv Rinv gamma0 mu0 Ropp]. apply vec_eq; cbn -[Rmult Rplus Rdiv Rinv gamma0 mu0 Ropp]; ring.
Qed.
