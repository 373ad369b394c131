(** Distances, directions and the mean value theorem for curves. *)
From Verif Require Import P_Vec P_PimmProps.
From Verif Require Export S_Converge.
From Coq Require Import Reals Lra Psatz.
Open Scope R_scope.

Lemma Minus_def a b : Minus a b = CV (cx a - cx b) (cy a - cy b) (cz a - cz b).
Proof. destruct a, b. unfold Minus, Scal, Plus; cbn. apply vec_eq; ring. Qed.
Lemma Norm_scal k a : Norm (Scal k a) = Rabs k * Norm a.
Proof.
  unfold Norm. rewrite Norm2_Scal, sqrt_mult_alt by nra. f_equal.
  replace (k * k) with (Rsqr k) by reflexivity. apply sqrt_Rsqr_abs.
Qed.
Lemma Distance_nonneg a b : 0 <= Distance a b.
Proof. apply Norm_nonneg. Qed.
Lemma Distance_sym a b : Distance a b = Distance b a.
Proof. unfold Distance, Norm. f_equal. rewrite !Minus_def. unfold Norm2, Dot. ring. Qed.
Lemma Distance_refl a : Distance a a = 0.
Proof. unfold Distance. apply Norm_zero_iff. rewrite Minus_def. apply vec_eq; ring. Qed.
Lemma Distance_triangle a b c : Distance a c <= Distance a b + Distance b c.
Proof.
  unfold Distance. replace (Minus a c) with (Plus (Minus a b) (Minus b c)); [apply Norm_triangle|].
  rewrite !Minus_def. unfold Plus. apply vec_eq; ring.
Qed.
Lemma Distance_eq_zero a b : Distance a b = 0 -> a = b.
Proof.
  unfold Distance. intros H. apply Norm_zero_iff in H. rewrite Minus_def in H. destruct a, b. injection H. intros. cbn in *. apply vec_eq; lra.
Qed.
Lemma Distance_plus a b c d : Distance (Plus a b) (Plus c d) <= Distance a c + Distance b d.
Proof.
  unfold Distance. replace (Minus (Plus a b) (Plus c d)) with (Plus (Minus a c) (Minus b d)); [apply Norm_triangle|].
  rewrite !Minus_def. destruct a, b, c, d. unfold Plus; cbn. apply vec_eq; ring.
Qed.
Lemma Distance_plus_l a b c : Distance (Plus a b) (Plus a c) = Distance b c.
Proof. unfold Distance. f_equal. rewrite !Minus_def. destruct a, b, c. unfold Plus; cbn. apply vec_eq; ring. Qed.
Lemma Distance_scal k a b : Distance (Scal k a) (Scal k b) = Rabs k * Distance a b.
Proof.
  unfold Distance. rewrite <- Norm_scal. f_equal. rewrite !Minus_def. destruct a, b. unfold Scal; cbn. apply vec_eq; ring.
Qed.
Lemma Distance_self_plus a b : Distance (Plus a b) a = Norm b.
Proof. unfold Distance. f_equal. rewrite Minus_def. destruct a, b. unfold Plus; cbn. apply vec_eq; ring. Qed.
Lemma Distance_zero_r a : Distance a Zero = Norm a.
Proof. unfold Distance. f_equal. rewrite Minus_def. destruct a. unfold Zero; cbn. apply vec_eq; ring. Qed.
Lemma Norm_Zero : Norm Zero = 0.
Proof. apply Norm_zero_iff. reflexivity. Qed.
Lemma Norm_dist a b : Norm a <= Norm b + Distance a b.
Proof. rewrite <- (Distance_zero_r a), <- (Distance_zero_r b). rewrite Rplus_comm. apply Distance_triangle. Qed.

Lemma Dot_le a b : Rabs (Dot a b) <= Norm a * Norm b.
Proof.
  pose proof (Norm_nonneg a). pose proof (Norm_nonneg b).
  rewrite <- (Rabs_pos_eq (Norm a * Norm b)) by nra. apply Rsqr_le_abs_0. unfold Rsqr.
  replace (Norm a * Norm b * (Norm a * Norm b)) with (Norm2 a * Norm2 b) by (rewrite <- !Norm_sqr; ring).
  apply Cauchy_Schwarz.
Qed.
Lemma Dot_minus a b c : Dot a (Minus b c) = Dot a b - Dot a c.
Proof. rewrite Minus_def. destruct a, b, c. unfold Dot; cbn. ring. Qed.
Lemma Norm2_le a k : 0 <= k -> Norm2 a <= k * Norm a -> Norm a <= k.
Proof. intros Hk H. rewrite <- Norm_sqr in H. pose proof (Norm_nonneg a). nra. Qed.
Lemma coord_le a : Rabs (cx a) <= Norm a /\ Rabs (cy a) <= Norm a /\ Rabs (cz a) <= Norm a.
Proof.
  pose proof (Norm_nonneg a) as P. pose proof (Norm_sqr a) as Q. destruct a as [x y z]. unfold Norm2, Dot in Q. cbn in *.
  assert (E : forall r, r * r <= Norm (CV x y z) * Norm (CV x y z) -> Rabs r <= Norm (CV x y z)).
  { intros r H. rewrite <- (Rabs_pos_eq _ P). apply Rsqr_le_abs_0. exact H. }
  repeat split; apply E; nra.
Qed.
Lemma coord_dist a b : Rabs (cx a - cx b) <= Distance a b /\ Rabs (cy a - cy b) <= Distance a b /\ Rabs (cz a - cz b) <= Distance a b.
Proof. pose proof (coord_le (Minus a b)) as H. rewrite Minus_def in H at 1 2 3. unfold Distance. rewrite Minus_def at 1 2 3. rewrite Minus_def in H. exact H. Qed.
Lemma Norm_le_coords a : Norm a <= Rabs (cx a) + Rabs (cy a) + Rabs (cz a).
Proof.
  pose proof (Norm_nonneg a) as P. pose proof (Norm_sqr a) as Q. destruct a as [x y z]. unfold Norm2, Dot in Q. cbn in *.
  pose proof (Rabs_pos x). pose proof (Rabs_pos y). pose proof (Rabs_pos z).
  assert (X : Rabs x * Rabs x = x * x) by (rewrite <- Rabs_mult; apply Rabs_pos_eq; nra).
  assert (Y : Rabs y * Rabs y = y * y) by (rewrite <- Rabs_mult; apply Rabs_pos_eq; nra).
  assert (Z : Rabs z * Rabs z = z * z) by (rewrite <- Rabs_mult; apply Rabs_pos_eq; nra).
  apply Rsqr_incr_0; [unfold Rsqr; nra|assumption|lra].
Qed.

(** Normalisation moves a vector by the defect of its length. *)
Lemma normal_dist v : v <> Zero -> Distance (Scal (/ Norm v) v) v = Rabs (Norm v - 1).
Proof.
  intros H. assert (P : 0 < Norm v). { pose proof (Norm_nonneg v). destruct (Req_EM_T (Norm v) 0) as [E|E]; [apply Norm_zero_iff in E; contradiction|lra]. }
  unfold Distance. replace (Minus (Scal (/ Norm v) v) v) with (Scal (/ Norm v - 1) v).
  - rewrite Norm_scal. rewrite <- (Rabs_pos_eq (Norm v)) at 2 by lra. rewrite <- Rabs_mult. rewrite Rabs_minus_sym. f_equal. field. lra.
  - rewrite Minus_def. destruct v. unfold Scal; cbn. apply vec_eq; ring.
Qed.
Lemma length_defect v : Rabs (Norm v - 1) <= Rabs (Norm2 v - 1).
Proof.
  rewrite <- Norm_sqr. replace (Norm v * Norm v - 1) with ((Norm v - 1) * (Norm v + 1)) by ring.
  rewrite Rabs_mult. pose proof (Norm_nonneg v). rewrite (Rabs_pos_eq (Norm v + 1)) by lra. pose proof (Rabs_pos (Norm v - 1)). nra.
Qed.

(** ** Curves *)
Lemma vderiv_dot f t d w : vderiv f t d -> derivable_pt_lim (fun s => Dot w (f s)) t (Dot w d).
Proof.
  intros (X & Y & Z). destruct w as [a b c].
  assert (E : derivable_pt_lim (fun s => a * cx (f s) + b * cy (f s) + c * cz (f s)) t (a * cx d + b * cy d + c * cz d)).
  { apply derivable_pt_lim_plus; [apply derivable_pt_lim_plus|]; apply derivable_pt_lim_scal; assumption. }
  destruct d. unfold Dot at 2. cbn in *. eapply derivable_pt_lim_ext; [|exact E]. intros s. cbn. destruct (f s). reflexivity.
Qed.
Lemma vderiv_norm2 f t d : vderiv f t d -> derivable_pt_lim (fun s => Norm2 (f s)) t (2 * Dot (f t) d).
Proof.
  intros (X & Y & Z).
  assert (E : derivable_pt_lim (fun s => cx (f s) * cx (f s) + cy (f s) * cy (f s) + cz (f s) * cz (f s)) t
    ((cx d * cx (f t) + cx (f t) * cx d) + (cy d * cy (f t) + cy (f t) * cy d) + (cz d * cz (f t) + cz (f t) * cz d))).
  { apply derivable_pt_lim_plus; [apply derivable_pt_lim_plus|];
      [apply (derivable_pt_lim_mult (fun s => cx (f s)) (fun s => cx (f s)))|apply (derivable_pt_lim_mult (fun s => cy (f s)) (fun s => cy (f s)))|apply (derivable_pt_lim_mult (fun s => cz (f s)) (fun s => cz (f s)))]; assumption. }
  replace (2 * Dot (f t) d) with ((cx d * cx (f t) + cx (f t) * cx d) + (cy d * cy (f t) + cy (f t) * cy d) + (cz d * cz (f t) + cz (f t) * cz d)).
  - eapply derivable_pt_lim_ext; [|exact E]. intros s. cbn. unfold Norm2, Dot. destruct (f s). reflexivity.
  - unfold Dot. destruct (f t), d. cbn. ring.
Qed.
Lemma mean_value f df a b w : a <= b -> (forall t, a <= t <= b -> vderiv f t (df t)) ->
  exists c, a <= c <= b /\ Dot w (Minus (f b) (f a)) = (b - a) * Dot w (df c).
Proof.
  intros [H|E] D.
  - destruct (MVT_cor2 (fun s => Dot w (f s)) (fun s => Dot w (df s)) a b H) as (c & E & I).
    + intros c I. apply vderiv_dot, D, I.
    + exists c. split; [lra|]. rewrite Dot_minus. cbn in E. rewrite E. ring.
  - subst b. exists a. split; [lra|]. rewrite Dot_minus. ring.
Qed.
(** A curve of bounded speed. *)
Lemma speed f df a b M : a <= b -> (forall t, a <= t <= b -> vderiv f t (df t) /\ Norm (df t) <= M) ->
  Distance (f b) (f a) <= M * (b - a).
Proof.
  intros H D. unfold Distance. set (w := Minus (f b) (f a)).
  destruct (mean_value f df a b w H (fun t I => proj1 (D t I))) as (c & I & E). fold w in E.
  pose proof (D c I) as [_ B]. pose proof (Norm_nonneg (df c)).
  apply Norm2_le; [apply Rmult_le_pos; lra|]. unfold Norm2. rewrite E.
  pose proof (Dot_le w (df c)) as C. pose proof (Rle_abs (Dot w (df c))). pose proof (Norm_nonneg w).
  assert (Dot w (df c) <= Norm w * M) by nra. nra.
Qed.
(** The error of following the tangent. *)
Lemma tangent_error f df a b A : a <= b -> 0 <= A -> (forall t, a <= t <= b -> vderiv f t (df t) /\ Distance (df t) (df a) <= A * (t - a)) ->
  Distance (f b) (Plus (f a) (Scal (b - a) (df a))) <= A * (b - a) * (b - a).
Proof.
  intros H HA D. unfold Distance. set (w := Minus (f b) (Plus (f a) (Scal (b - a) (df a)))).
  destruct (mean_value f df a b w H (fun t I => proj1 (D t I))) as (c & I & E).
  assert (F : Norm2 w = (b - a) * Dot w (Minus (df c) (df a))).
  { rewrite Dot_minus. replace ((b - a) * (Dot w (df c) - Dot w (df a))) with (Dot w (Minus (f b) (f a)) - (b - a) * Dot w (df a)) by lra.
    unfold Norm2. unfold w at 2. rewrite !Dot_minus. destruct w, (f a), (df a). unfold Dot, Plus, Scal. ring. }
  pose proof (D c I) as [_ B]. pose proof (Norm_nonneg w).
  apply Norm2_le; [repeat apply Rmult_le_pos; lra|]. rewrite F.
  pose proof (Dot_le w (Minus (df c) (df a))) as C. pose proof (Rle_abs (Dot w (Minus (df c) (df a)))). unfold Distance in B.
  assert (G : Dot w (Minus (df c) (df a)) <= Norm w * (A * (b - a))).
  { apply Rle_trans with (Norm w * Norm (Minus (df c) (df a))); [lra|]. apply Rmult_le_compat_l; [lra|]. apply Rle_trans with (A * (c - a)); [exact B|]. apply Rmult_le_compat_l; lra. }
  replace (A * (b - a) * (b - a) * Norm w) with ((b - a) * (Norm w * (A * (b - a)))) by ring. apply Rmult_le_compat_l; lra.
Qed.
