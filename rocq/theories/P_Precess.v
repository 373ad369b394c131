(** Closed form of undamped precession. *)
From Verif Require Import P_RunProps P_LayerProps P_Step4 P_Converge P_Metric P_PimmProps P_Regular.
From Verif Require Export S_Precess.
From Coq Require Import Reals Lra Lia Psatz.
Open Scope R_scope.

(** ** Spirals *)
Lemma cross_twice n m : Unit n -> Cross n (Cross n m) = Minus (Scal (Dot n m) n) m.
Proof.
  intros U. unfold Unit, Norm2, Dot in U. rewrite Minus_def. destruct n as [a b c], m as [x y z]. unfold Cross, Scal, Dot; cbn [cx cy cz].
  apply vec_eq; apply Rminus_diag_uniq; [transitivity (x * (1 - (a * a + b * b + c * c)))|transitivity (y * (1 - (a * a + b * b + c * c)))|transitivity (z * (1 - (a * a + b * b + c * c)))]; try ring; rewrite U; ring.
Qed.
Lemma spiral_def n a b m : spiral n a b m = Plus (Scal a m) (Plus (Scal ((1 - a) * Dot n m) n) (Scal b (Cross n m))).
Proof. unfold spiral. rewrite Minus_def. generalize (Dot n m) (Cross n m). intros k [p q r]. destruct n as [n1 n2 n3], m as [m1 m2 m3]. unfold Plus, Scal; cbn [cx cy cz]. apply vec_eq; ring. Qed.
Lemma spiral_along n a b m : Unit n -> Dot n (spiral n a b m) = Dot n m.
Proof.
  intros U. rewrite spiral_def. assert (X : forall k c, Dot n (Plus (Scal a m) (Plus (Scal k n) (Scal b c))) = a * Dot n m + (k * Norm2 n + b * Dot n c)).
  { intros k c. destruct n as [n1 n2 n3], m as [m1 m2 m3], c as [c1 c2 c3]. unfold Norm2, Dot, Plus, Scal. ring. }
  rewrite X, Dot_Cross_l. unfold Unit in U. rewrite U. ring.
Qed.
Lemma spiral_cross n a b m : Unit n -> Cross n (spiral n a b m) = Plus (Scal a (Cross n m)) (Scal b (Minus (Scal (Dot n m) n) m)).
Proof.
  intros U. rewrite <- (cross_twice n m U), spiral_def.
  assert (X : forall k c, Cross n (Plus (Scal a m) (Plus (Scal k n) (Scal b c))) = Plus (Scal a (Cross n m)) (Scal b (Cross n c))).
  { intros k c. destruct n as [n1 n2 n3], m as [m1 m2 m3], c as [c1 c2 c3]. unfold Cross, Plus, Scal. apply vec_eq; ring. }
  apply X.
Qed.
Lemma spiral_compose n a b a' b' m : Unit n -> spiral n a b (spiral n a' b' m) = spiral n (a * a' - b * b') (a * b' + b * a') m.
Proof.
  intros U. rewrite (spiral_def n a b), (spiral_along n a' b' m U), (spiral_cross n a' b' m U), !spiral_def, Minus_def.
  generalize (Dot n m) (Cross n m). intros k [p q r]. destruct n as [n1 n2 n3], m as [m1 m2 m3]. unfold Plus, Scal; cbn [cx cy cz]. apply vec_eq; ring.
Qed.
Lemma spiral_one n m : spiral n 1 0 m = m.
Proof. rewrite spiral_def. generalize (Dot n m) (Cross n m). intros k [p q r]. destruct n as [n1 n2 n3], m as [m1 m2 m3]. unfold Plus, Scal. apply vec_eq; ring. Qed.
Lemma spiral_scal n a b k m : spiral n a b (Scal k m) = Scal k (spiral n a b m).
Proof.
  rewrite !spiral_def. assert (X : Dot n (Scal k m) = k * Dot n m) by (destruct n as [n1 n2 n3], m as [m1 m2 m3]; unfold Dot, Scal; ring).
  assert (Y : Cross n (Scal k m) = Scal k (Cross n m)) by (destruct n as [n1 n2 n3], m as [m1 m2 m3]; unfold Cross, Scal; apply vec_eq; ring).
  rewrite X, Y. generalize (Dot n m) (Cross n m). intros d [p q r]. destruct n as [n1 n2 n3], m as [m1 m2 m3]. unfold Plus, Scal. apply vec_eq; ring.
Qed.
Lemma spiral_norm n a b m : Unit n -> Norm2 (spiral n a b m) = (Dot n m) * (Dot n m) + (a * a + b * b) * (Norm2 m - Dot n m * Dot n m).
Proof.
  intros U. rewrite spiral_def. assert (A := Dot_Cross_l n m). assert (B := Dot_Cross_r n m). assert (C := Lagrange n m). unfold Unit in U. rewrite U in C.
  assert (E : forall k, Norm2 (Plus (Scal a m) (Plus (Scal k n) (Scal b (Cross n m)))) =
     a * a * Norm2 m + k * k * Norm2 n + b * b * Norm2 (Cross n m) + 2 * a * k * Dot n m + 2 * a * b * Dot m (Cross n m) + 2 * k * b * Dot n (Cross n m)).
  { intros k. generalize (Cross n m). intros c. destruct n as [n1 n2 n3], m as [m1 m2 m3], c as [c1 c2 c3]. unfold Norm2, Dot, Plus, Scal. ring. }
  rewrite E, A, B, C, U. ring.
Qed.
(** Two spirals of the same vector differ by at most the difference of the amplifications. *)
Lemma spiral_dist n a b a' b' m : Unit n -> Unit m -> Distance (spiral n a b m) (spiral n a' b' m) <= Rabs (a - a') + Rabs (b - b').
Proof.
  intros Un Um. unfold Distance.
  replace (Minus (spiral n a b m) (spiral n a' b' m)) with (Plus (Scal (a - a') (Minus m (Scal (Dot n m) n))) (Scal (b - b') (Cross n m))).
  2: { unfold spiral. rewrite !Minus_def. generalize (Dot n m) (Cross n m). intros k [p q r]. destruct n as [n1 n2 n3], m as [m1 m2 m3]. unfold Plus, Scal; cbn [cx cy cz]. apply vec_eq; ring. }
  pose proof (Norm_triangle (Scal (a - a') (Minus m (Scal (Dot n m) n))) (Scal (b - b') (Cross n m))) as TR. rewrite !Norm_scal in TR.
  assert (Q : 1 - Dot n m * Dot n m <= 1) by nra.
  assert (N1 : Norm (Cross n m) <= 1).
  { unfold Norm. rewrite Lagrange. unfold Unit in Un, Um. rewrite Un, Um. apply Rle_trans with (sqrt 1); [apply sqrt_le_1_alt; lra|rewrite sqrt_1; lra]. }
  assert (N2 : Norm (Minus m (Scal (Dot n m) n)) <= 1).
  { unfold Norm. assert (X : Norm2 (Minus m (Scal (Dot n m) n)) = Norm2 m - 2 * Dot n m * Dot n m + Dot n m * Dot n m * Norm2 n).
    { rewrite Minus_def. assert (G : forall k, Norm2 (CV (cx m - cx (Scal k n)) (cy m - cy (Scal k n)) (cz m - cz (Scal k n))) = Norm2 m - 2 * k * Dot n m + k * k * Norm2 n).
      { intros k. destruct m as [m1 m2 m3], n as [n1 n2 n3]. unfold Norm2, Dot, Scal; cbn [cx cy cz]. ring. } apply G. }
    rewrite X. unfold Unit in Un, Um. rewrite Un, Um. apply Rle_trans with (sqrt 1); [apply sqrt_le_1_alt; lra|rewrite sqrt_1; lra]. }
  pose proof (Rabs_pos (a - a')). pose proof (Rabs_pos (b - b')). pose proof (Norm_nonneg (Cross n m)). pose proof (Norm_nonneg (Minus m (Scal (Dot n m) n))).
  assert (Rabs (a - a') * Norm (Minus m (Scal (Dot n m) n)) <= Rabs (a - a') * 1) by (apply Rmult_le_compat_l; lra).
  assert (Rabs (b - b') * Norm (Cross n m) <= Rabs (b - b') * 1) by (apply Rmult_le_compat_l; lra). lra.
Qed.

(** ** One step *)
Lemma feels_rhs l b w H t m d : feels l b w H -> (rhs l t m b w d <-> d = Scal gamma0 (Cross H m)).
Proof.
  intros (A & S1 & S2 & M1 & M2 & F).
  assert (P : LLG_plain (l_damping l) m H = Scal gamma0 (Cross H m)).
  { rewrite A. unfold LLG_plain, prefactor, LL. destruct m as [m1 m2 m3], H as [H1 H2 H3]. unfold Cross, Plus, Scal. apply vec_eq; field; lra. }
  split.
  - intros (i & I & _ & _ & D). destruct (F t m) as (i' & I' & E).
    assert (i = i') by (rewrite (P_Regular.ins_ok _ _ _ I), (P_Regular.ins_ok _ _ _ I'); reflexivity). subst i'.
    rewrite E in D. inversion D; congruence.
  - intros ->. destruct (F t m) as (i & I & E). exists i. split; [exact I|]. split; [exact M1|]. split; [exact M2|]. rewrite E, <- P. apply llg_plain; assumption.
Qed.
Lemma field_axis h n m : Scal gamma0 (Cross (Scal h n) m) = Scal (gamma0 * h) (Cross n m).
Proof. destruct n as [n1 n2 n3], m as [m1 m2 m3]. unfold Cross, Scal. apply vec_eq; ring. Qed.
Lemma rk4_spiral n w dt m (F : R -> cvec -> cvec -> Prop) t m' : Unit n -> (forall s v d, F s v d <-> d = Scal w (Cross n v)) ->
  RK4_scheme F t dt m m' -> Normalised (spiral n (fst (gain RunMulti (w * dt))) (snd (gain RunMulti (w * dt))) m) m'.
Proof.
  intros U HF (f1 & f2 & f3 & f4 & F1 & F2 & F3 & F4 & HN). apply HF in F1, F2, F3, F4. subst f1 f2 f3 f4.
  set (z := w * dt). replace (spiral n (fst (gain RunMulti z)) (snd (gain RunMulti z)) m) with
    (Plus m (Scal (dt / 6) (Sum [Scal w (Cross n m); Scal 2 (Scal w (Cross n (Plus m (Scal (dt / 2) (Scal w (Cross n m))))));
      Scal 2 (Scal w (Cross n (Plus m (Scal (dt / 2) (Scal w (Cross n (Plus m (Scal (dt / 2) (Scal w (Cross n m))))))))));
      Scal w (Cross n (Plus m (Scal dt (Scal w (Cross n (Plus m (Scal (dt / 2) (Scal w (Cross n (Plus m (Scal (dt / 2) (Scal w (Cross n m)))))))))))))]))); [exact HN|].
  clear HN. set (J := Cross n m). set (J2 := Cross n J). set (J3 := Cross n J2). set (J4 := Cross n J3).
  assert (LIN : forall a b k, Cross n (Plus a (Scal k b)) = Plus (Cross n a) (Scal k (Cross n b))).
  { intros a b k. destruct n as [n1 n2 n3], a as [a1 a2 a3], b as [b1 b2 b3]. unfold Cross, Plus, Scal. apply vec_eq; ring. }
  assert (LS : forall a k, Cross n (Scal k a) = Scal k (Cross n a)).
  { intros a k. destruct n as [n1 n2 n3], a as [a1 a2 a3]. unfold Cross, Scal. apply vec_eq; ring. }
  assert (LP : forall a b, Cross n (Plus a b) = Plus (Cross n a) (Cross n b)).
  { intros a b. destruct n as [n1 n2 n3], a as [a1 a2 a3], b as [b1 b2 b3]. unfold Cross, Plus. apply vec_eq; ring. }
  assert (E3 : J3 = Scal (-1) J).
  { unfold J3, J2. rewrite (cross_twice n J U). unfold J at 1. rewrite Dot_Cross_l. rewrite Minus_def. generalize J. intros [p q r]. destruct n as [n1 n2 n3]. unfold Scal; cbn [cx cy cz]. apply vec_eq; ring. }
  assert (E2 : J2 = Minus (Scal (Dot n m) n) m) by (apply cross_twice; exact U).
  assert (E4 : J4 = Scal (-1) J2) by (unfold J4; rewrite E3, LS; reflexivity).
  repeat (rewrite !LP || rewrite !LS). fold J J2 J3 J4. repeat (rewrite !LP || rewrite !LS). fold J J2 J3 J4. rewrite E4, E3, E2.
  unfold spiral. rewrite Minus_def. unfold gain, fst, snd. fold J. cbn [Sum fold_right]. rewrite Minus_def. unfold z.
  generalize (Dot n m) J. intros k [p q r]. destruct n as [n1 n2 n3], m as [m1 m2 m3]. unfold Plus, Scal, Zero; cbn [cx cy cz]. apply vec_eq; field.
Qed.
Lemma euler_spiral n w dt m : spiral n 1 (w * dt) m = Plus m (Scal dt (Scal w (Cross n m))).
Proof. rewrite spiral_def. generalize (Dot n m) (Cross n m). intros k [p q r]. destruct n as [n1 n2 n3], m as [m1 m2 m3]. unfold Plus, Scal. apply vec_eq; ring. Qed.
Lemma heun_spiral n w dt m : Unit n -> spiral n (1 - (w * dt) ^ 2 / 2) (w * dt) m =
  Plus m (Scal (dt / 2) (Plus (Scal w (Cross n m)) (Scal w (Cross n (Plus m (Scal dt (Scal w (Cross n m)))))))).
Proof.
  intros U. assert (X : Cross n (Plus m (Scal dt (Scal w (Cross n m)))) = Plus (Cross n m) (Scal (dt * w) (Cross n (Cross n m)))).
  { generalize (Cross n m) at 1 3. intros c. destruct n as [n1 n2 n3], m as [m1 m2 m3], c as [c1 c2 c3]. unfold Cross, Plus, Scal. apply vec_eq; ring. }
  rewrite X, (cross_twice n m U), spiral_def, Minus_def. generalize (Dot n m) (Cross n m). intros k [p q r]. destruct n as [n1 n2 n3], m as [m1 m2 m3]. unfold Plus, Scal; cbn [cx cy cz]. apply vec_eq; field.
Qed.
Lemma gain_norm r z : fst (gain r z) * fst (gain r z) + snd (gain r z) * snd (gain r z) = gain2 r z.
Proof. destruct r; unfold gain, gain2, fst, snd; field. Qed.

Lemma gyro_step r t dt j j' p l l' h n : Unit n -> 0 <= dt -> gyroscope l h n -> (r = RunSingle -> length (j_layers j) = 1%nat) ->
  run_runner r t dt j = (j', Ok tt) -> nth_error (j_layers j) p = Some l -> nth_error (j_layers j') p = Some l' ->
  Normalised (spiral n (fst (gain r (gamma0 * h * dt))) (snd (gain r (gamma0 * h * dt))) (l_mag l)) (l_mag l').
Proof.
  intros U HD [HQ HF] Hr E Hp Hp'.
  assert (R : forall b w s v d, rhs l s v b w d <-> d = Scal (gamma0 * h) (Cross n v)).
  { intros b w s v d. rewrite (feels_rhs l b w (Scal h n) s v d (HF b w)), field_axis. reflexivity. }
  destruct r; cbn [run_runner] in E.
  - apply single_sound in E. destruct E as (_ & _ & S). specialize (S p l l' Hp Hp'). specialize (Hr eq_refl).
    assert (p = 0%nat). { assert (p < length (j_layers j))%nat by (apply nth_error_Some; congruence). lia. } subst p. destruct S as [S _].
    apply (rk4_spiral n (gamma0 * h) dt (l_mag l) _ t (l_mag l') U (fun s v d => R Zero Zero s v d) S).
  - apply multi_sound in E. destruct E as (_ & _ & S). destruct (S p l l' Hp Hp') as [S' _].
    apply (rk4_spiral n (gamma0 * h) dt (l_mag l) _ t (l_mag l') U (fun s v d => R _ _ s v d) S').
  - apply heun_sound in E. destruct E as (ws & ps & _ & _ & _ & _ & S). destruct (S p l l' Hp Hp') as (wq & q & c & _ & _ & NS & HPr & HC & _).
    apply quiet_noise in NS; [|exact HQ]. subst wq. destruct HPr as (_ & f0 & F0 & ->). destruct HC as (f & f' & F & F' & HN).
    rewrite !plain_no_field, !Plus_Zero_r, !Scal_Zero, !Plus_Zero_r in *. apply R in F0, F, F'. subst f0 f f'. unfold gain, fst, snd. rewrite heun_spiral by exact U. exact HN.
  - apply eh_sound in E. destruct E as (_ & _ & S). destruct (S p l l' Hp Hp') as (wq & c & NS & (_ & f & F & HN) & _). apply quiet_noise in NS; [|exact HQ]. subst wq.
    cbv zeta beta in HN. rewrite !plain_no_field, !Plus_Zero_r, !Scal_Zero, !Plus_Zero_r in HN. apply R in F. subst f. unfold gain, fst, snd. rewrite euler_spiral. exact HN.
Qed.
Lemma gyro_static l l' h n : static l l' -> gyroscope l h n -> gyroscope l' h n.
Proof.
  intros (m & c & rp & bf & ->) [Q F]. split; [exact Q|]. intros b w. exact (F b w).
Qed.

(** ** Many steps *)
Lemma cpow_S a b k : cpow a b (S k) = (a * fst (cpow a b k) - b * snd (cpow a b k), a * snd (cpow a b k) + b * fst (cpow a b k)).
Proof. cbn [cpow]. destruct (cpow a b k). reflexivity. Qed.
Lemma cpow_norm a b k : fst (cpow a b k) * fst (cpow a b k) + snd (cpow a b k) * snd (cpow a b k) = (a * a + b * b) ^ k.
Proof. induction k as [|k IH]; [cbn; ring|]. rewrite cpow_S. cbn [fst snd pow]. rewrite <- IH. ring. Qed.
Lemma normalised_scal v u k : 0 < k -> Normalised (Scal k v) u <-> Normalised v u.
Proof.
  intros Hk. assert (Z : Scal k v = Zero <-> v = Zero).
  { split; [|intros ->; unfold Zero, Scal; apply vec_eq; ring]. destruct v as [x y z]. unfold Scal, Zero. intros H. injection H as A B C. apply vec_eq; nra. }
  unfold Normalised. rewrite Norm_scal, Rabs_pos_eq by lra.
  split; (intros [[A B]|[A B]]; [left; split; [apply Z; exact A|exact B]|right; split; [intros X; apply A, Z; exact X|]]); rewrite B;
    (assert (N : Norm v <> 0) by (intros X; apply Norm_zero_iff in X; apply A, Z; try exact X; try (apply Z; exact X)));
    destruct v as [v1 v2 v3]; unfold Scal; apply vec_eq; field; split; lra.
Qed.
Lemma normalised_spiral n a b v m u : Normalised v m -> Normalised (spiral n a b m) u -> Normalised (spiral n a b v) u.
Proof.
  intros [[-> ->]|[NZ ->]] H; [exact H|].
  assert (P : 0 < Norm v) by (pose proof (Norm_nonneg v); destruct (Req_EM_T (Norm v) 0) as [E|E]; [apply Norm_zero_iff in E; contradiction|lra]).
  rewrite spiral_scal in H. apply normalised_scal in H; [exact H|apply Rinv_0_lt_compat; exact P].
Qed.
Lemma normalised_unit v u : Unit v -> Normalised v u <-> u = v.
Proof.
  intros U. assert (NZ := Unit_nonzero v U). unfold Normalised. rewrite (Norm_unit v U).
  split; [intros [[A _]|[_ ->]]; [contradiction|]|intros ->; right; split; [exact NZ|]]; destruct v as [v1 v2 v3]; unfold Scal; apply vec_eq; field.
Qed.
Lemma gyro_trajectory r dt s N p l h n : Unit n -> 0 <= dt -> Unit (l_mag l) -> gyroscope l h n -> (r = RunSingle -> length (j_layers (s 0%nat)) = 1%nat) ->
  trajectory r dt s N -> nth_error (j_layers (s 0%nat)) p = Some l ->
  forall k lk, (k <= N)%nat -> nth_error (j_layers (s k)) p = Some lk ->
  Normalised (spiral n (fst (cpow (fst (gain r (gamma0 * h * dt))) (snd (gain r (gamma0 * h * dt))) k)) (snd (cpow (fst (gain r (gamma0 * h * dt))) (snd (gain r (gamma0 * h * dt))) k)) (l_mag l)) (l_mag lk).
Proof.
  intros U HD Um HG Hr HTr Hp. set (a := fst (gain r (gamma0 * h * dt))). set (b := snd (gain r (gamma0 * h * dt))).
  induction k as [|k IH]; intros lk Hk Hlk.
  - cbn [cpow fst snd]. rewrite spiral_one. assert (lk = l) by congruence. subst lk. apply normalised_unit; [exact Um|reflexivity].
  - pose proof (traj_static _ _ _ _ k HTr ltac:(lia)) as (_ & LE & ST). pose proof (HTr k ltac:(lia)) as E.
    destruct (nth_error_same_length _ _ _ _ LE Hp) as [l1 Hl1]. specialize (IH l1 ltac:(lia) Hl1).
    assert (X : Normalised (spiral n a b (l_mag l1)) (l_mag lk)).
    { apply (gyro_step r (INR k * dt) dt (s k) (s (S k)) p l1 lk h n); try assumption; [exact (gyro_static l l1 h n (ST p l l1 Hp Hl1) HG)|]. intros Q. rewrite LE. apply Hr. exact Q. }
    rewrite cpow_S. cbn [fst snd]. rewrite <- (spiral_compose n a b) by exact U. exact (normalised_spiral n a b _ _ _ IH X).
Qed.
