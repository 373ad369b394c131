(** Facts about the vector model. *)
From Verif Require Export S_Vec.
Open Scope R_scope.

Lemma vec_eq a1 a2 a3 b1 b2 b3 : a1 = b1 -> a2 = b2 -> a3 = b3 -> CV a1 a2 a3 = CV b1 b2 b3.
Proof. intros -> -> ->; reflexivity. Qed.

Ltac vsimp := unfold vnull, Zero, Minus, vadd, vsub, vscale, vadds, c_dot, c_cross, Norm2,
    UnitOrZero, Unit in *; unfold vget in *;
    cbn [Z.eqb Pos.eqb cx cy cz Dot Cross Scal Plus row0 row1 row2] in *.
Ltac vring := intros; repeat match goal with v : cvec |- _ => destruct v end; vsimp;
  first [apply vec_eq; ring | ring].

Lemma c_dot_Dot a b : c_dot a b = Dot a b.
Proof. vring. Qed.
Lemma c_cross_Cross a b : c_cross a b = Cross a b.
Proof. vring. Qed.
Lemma vadd_Plus a b : vadd a b = Plus a b.
Proof. vring. Qed.
Lemma vsub_Minus a b : vsub a b = Minus a b.
Proof. vring. Qed.
Lemma vscale_Scal a k : vscale a k = Scal k a.
Proof. vring. Qed.
Lemma vnull_Zero : vnull = Zero.
Proof. reflexivity. Qed.
Lemma vdiv_ok a k : k <> 0 -> vdiv a k = Ok (Scal (/ k) a).
Proof. intros H. unfold vdiv. destruct (Req_EM_T k 0); [contradiction|]. destruct a; cbn. 
  f_equal. apply vec_eq; unfold Rdiv; ring. Qed.
Lemma vdiv_zero a : vdiv a 0 = Err (Throw "Failed to divide vector by zero!").
Proof. unfold vdiv. destruct (Req_EM_T 0 0); [reflexivity|contradiction]. Qed.
Lemma vdiv_inv a k r : vdiv a k = Ok r -> k <> 0 /\ r = Scal (/ k) a.
Proof. unfold vdiv. destruct (Req_EM_T k 0) as [H|H]; [discriminate|]. intros E; injection E as <-.
  split; [exact H|]. destruct a; cbn. apply vec_eq; unfold Rdiv; ring. Qed.

Lemma Norm2_nonneg a : 0 <= Norm2 a.
Proof. destruct a; vsimp; nra. Qed.
Lemma Norm2_zero a : Norm2 a = 0 -> a = Zero.
Proof. destruct a as [x y z]; vsimp; intros H.
  assert (x = 0) by nra. assert (y = 0) by nra. assert (z = 0) by nra. subst; reflexivity. Qed.
Lemma vlength_Norm a : vlength a = Norm a.
Proof. unfold vlength, Norm. destruct a; vsimp. f_equal; ring. Qed.
Lemma Norm_nonneg a : 0 <= Norm a.
Proof. apply sqrt_pos. Qed.
Lemma Norm_sqr a : Norm a * Norm a = Norm2 a.
Proof. apply sqrt_sqrt, Norm2_nonneg. Qed.
Lemma Norm_zero_iff a : Norm a = 0 <-> a = Zero.
Proof.
  split; intros H.
  - apply Norm2_zero. rewrite <- Norm_sqr, H; ring.
  - subst. unfold Norm. replace (Norm2 Zero) with 0 by (vsimp; ring). apply sqrt_0.
Qed.
Lemma Norm_unit a : Unit a -> Norm a = 1.
Proof. unfold Unit, Norm. intros ->. apply sqrt_1. Qed.

Lemma vnormalize_zero : vnormalize Zero = Zero.
Proof. unfold vnormalize. rewrite vlength_Norm. destruct (Req_EM_T (Norm Zero) 0) as [E|E]; [reflexivity|].
  exfalso; apply E, Norm_zero_iff; reflexivity. Qed.
Lemma vnormalize_nonzero a : a <> Zero -> vnormalize a = Scal (/ Norm a) a.
Proof. intros H. unfold vnormalize. rewrite vlength_Norm.
  destruct (Req_EM_T (Norm a) 0) as [E|E]. { exfalso; apply H, Norm_zero_iff, E. }
  destruct a; cbn. apply vec_eq; unfold Rdiv; ring. Qed.
Lemma Norm2_Scal k a : Norm2 (Scal k a) = k * k * Norm2 a.
Proof. destruct a; vsimp; ring. Qed.
Lemma vnormalize_unit a : a <> Zero -> Unit (vnormalize a).
Proof. intros H. rewrite vnormalize_nonzero by exact H. unfold Unit. rewrite Norm2_Scal, <- Norm_sqr.
  assert (Norm a <> 0) by (intros E; apply H, Norm_zero_iff, E). field; assumption. Qed.
Lemma zero_dec (a : cvec) : a = Zero \/ a <> Zero.
Proof. destruct (Req_EM_T (Norm2 a) 0) as [E|E]; [left; apply Norm2_zero, E|right].
  intros ->; apply E; vsimp; ring. Qed.
Lemma vnormalize_UnitOrZero a : UnitOrZero (vnormalize a).
Proof. destruct (zero_dec a) as [->|H]; [right; apply vnormalize_zero|left; apply vnormalize_unit, H]. Qed.
Lemma Unit_nonzero a : Unit a -> a <> Zero.
Proof. intros H ->. unfold Unit in H. vsimp. lra. Qed.
Lemma vnormalize_id a : Unit a -> vnormalize a = a.
Proof. intros H. rewrite vnormalize_nonzero by (apply Unit_nonzero, H). rewrite Norm_unit by exact H.
  destruct a; cbn; apply vec_eq; field. Qed.
Lemma vnormalize_idem a : vnormalize (vnormalize a) = vnormalize a.
Proof. destruct (zero_dec a) as [->|H]; [rewrite !vnormalize_zero; reflexivity|].
  apply vnormalize_id, vnormalize_unit, H. Qed.
Lemma vnormalize_scal k a : 0 < k -> vnormalize (Scal k a) = vnormalize a.
Proof.
  intros Hk. destruct (zero_dec a) as [->|H].
  { replace (Scal k Zero) with Zero by (vsimp; apply vec_eq; ring). reflexivity. }
  assert (Hn : Norm a <> 0) by (intros E; apply H, Norm_zero_iff, E).
  assert (Hk2 : Norm (Scal k a) = k * Norm a).
  { unfold Norm. rewrite Norm2_Scal. rewrite sqrt_mult by (try apply Norm2_nonneg; nra).
    rewrite sqrt_square by lra. reflexivity. }
  rewrite !vnormalize_nonzero; [|exact H|].
  - rewrite Hk2. destruct a; cbn. apply vec_eq; field; lra.
  - intros E. apply Hn. apply Rmult_eq_reg_l with k; [|lra]. rewrite <- Hk2, E.
    replace (Norm Zero) with 0 by (symmetry; apply Norm_zero_iff; reflexivity). ring.
Qed.

Lemma Dot_comm a b : Dot a b = Dot b a.
Proof. vring. Qed.
Lemma Lagrange a b : Norm2 (Cross a b) = Norm2 a * Norm2 b - Dot a b * Dot a b.
Proof. vring. Qed.
Lemma Cauchy_Schwarz a b : Dot a b * Dot a b <= Norm2 a * Norm2 b.
Proof. generalize (Norm2_nonneg (Cross a b)). rewrite Lagrange. lra. Qed.
Lemma Dot_Cross_l a b : Dot a (Cross a b) = 0.
Proof. vring. Qed.
Lemma Dot_Cross_r a b : Dot b (Cross a b) = 0.
Proof. vring. Qed.

Lemma vec_of_list_spec l v : vec_of_list l = Ok v <-> l = [cx v; cy v; cz v].
Proof. split.
  - destruct l as [|a [|b [|c [|]]]]; cbn; try discriminate. intros E; injection E as <-; reflexivity.
  - intros ->. destruct v; reflexivity. Qed.
Lemma tensor_interaction_spec m t Ms :
  calculate_tensor_interaction m t Ms = Scal (Ms / MAGNETIC_PERMEABILITY) (MatVec t m).
Proof. destruct t as [[a1 a2 a3] [b1 b2 b3] [c1 c2 c3]], m as [m1 m2 m3].
  unfold calculate_tensor_interaction, MatVec; vsimp. apply vec_eq; ring. Qed.

Lemma GYRO_pos : 0 < GYRO. Proof. unfold GYRO; lra. Qed.
Lemma MU0_pos : 0 < MAGNETIC_PERMEABILITY. Proof. unfold MAGNETIC_PERMEABILITY; lra. Qed.
Lemma fdiv_inv a b r : fdiv a b = Ok r -> b <> 0 /\ r = a / b.
Proof. unfold fdiv. destruct (Req_EM_T b 0); intros E; inversion E; auto. Qed.
Lemma fdiv_ok a b : b <> 0 -> fdiv a b = Ok (a / b).
Proof. unfold fdiv. destruct (Req_EM_T b 0); tauto. Qed.
Lemma conv_pos a : 0 < 1 + a ^ 2. Proof. nra. Qed.
