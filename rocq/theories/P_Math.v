(** Facts about the library functions. *)
From Verif Require Export S_Math.
From Coq Require Import Psatz.
Open Scope R_scope.

Lemma atan_point x y : 0 < x -> exists r, 0 < r /\ x = r * cos (atan (y / x)) /\ y = r * sin (atan (y / x)).
Proof.
  intros Hx. pose proof (atan_bound (y / x)) as [B1 B2]. assert (C : 0 < cos (atan (y / x))) by (apply cos_gt_0; lra).
  exists (x / cos (atan (y / x))). split; [apply Rdiv_lt_0_compat; assumption|]. split; [field; lra|].
  assert (T : tan (atan (y / x)) = y / x) by apply tan_atan. unfold tan in T. clear B1 B2. generalize dependent (atan (y / x)). intros a C T.
  assert (E : sin a = y / x * cos a) by (rewrite <- T; field; lra). rewrite E. field. lra.
Qed.
Lemma atan2_angle y x : principal_angle x y (atan2 y x).
Proof.
  pose proof PI_RGT_0 as HP. unfold atan2. destruct (Rlt_dec 0 x) as [Hx|Hx].
  - right. destruct (atan_point x y Hx) as (r & Hr & E1 & E2). exists r. split; [exact Hr|]. split; [exact E1|]. split; [exact E2|]. pose proof (atan_bound (y / x)). lra.
  - destruct (Rlt_dec x 0) as [Hx'|Hx'].
    + right. destruct (atan_point (- x) (- y)) as (r & Hr & E1 & E2); [lra|]. replace (- y / - x) with (y / x) in E1, E2 by (field; lra).
      pose proof (atan_bound (y / x)) as [B1 B2]. exists r. destruct (Rle_dec 0 y) as [Hy|Hy].
      * split; [exact Hr|]. rewrite neg_cos, neg_sin. split; [lra|]. split; [lra|]. split; [lra|].
        assert (atan (y / x) <= 0); [|lra]. destruct (Rle_dec (atan (y / x)) 0) as [L|L]; [exact L|]. exfalso. assert (0 < sin (atan (y / x))) by (apply sin_gt_0; lra). nra.
      * split; [exact Hr|]. replace (atan (y / x) - PI) with (- (PI - atan (y / x))) by ring. rewrite cos_neg, sin_neg.
        assert (S1 : sin (PI - atan (y / x)) = sin (atan (y / x))) by (rewrite sin_minus, sin_PI, cos_PI; ring).
        assert (C1 : cos (PI - atan (y / x)) = - cos (atan (y / x))) by (rewrite cos_minus, sin_PI, cos_PI; ring).
        rewrite S1, C1. split; [lra|]. split; [lra|]. split; [|lra].
        assert (0 < atan (y / x)); [|lra]. destruct (Rlt_dec 0 (atan (y / x))) as [L|L]; [exact L|]. exfalso. assert (sin (atan (y / x)) <= 0).
        { destruct (Req_dec (atan (y / x)) 0) as [->|N]; [rewrite sin_0; lra|]. left. replace (atan (y / x)) with (- (- atan (y / x))) by ring. rewrite sin_neg. assert (0 < sin (- atan (y / x))) by (apply sin_gt_0; lra). lra. }
        nra.
    + assert (x = 0) by lra. subst x. destruct (Rlt_dec 0 y) as [Hy|Hy].
      * right. exists y. rewrite cos_PI2, sin_PI2. repeat split; lra.
      * destruct (Rlt_dec y 0) as [Hy'|Hy'].
        -- right. exists (- y). rewrite cos_neg, sin_neg, cos_PI2, sin_PI2. repeat split; lra.
        -- left. repeat split; lra.
Qed.
Lemma angle_unique a b : - PI < a <= PI -> - PI < b <= PI -> cos a = cos b -> sin a = sin b -> a = b.
Proof.
  intros Ha Hb HC HS. pose proof PI_RGT_0 as HP. assert (C1 : cos (a - b) = 1) by (rewrite cos_minus, HC, HS; pose proof (sin2_cos2 b) as X; unfold Rsqr in X; lra).
  assert (S1 : sin ((a - b) / 2) = 0).
  { assert (X : cos (2 * ((a - b) / 2)) = 1) by (replace (2 * ((a - b) / 2)) with (a - b) by field; exact C1). rewrite cos_2a_sin in X. nra. }
  destruct (Rtotal_order a b) as [L|[E|L]]; [|exact E|]; exfalso.
  - assert (0 < sin (- ((a - b) / 2))) by (apply sin_gt_0; lra). rewrite sin_neg in H. lra.
  - assert (0 < sin ((a - b) / 2)) by (apply sin_gt_0; lra). lra.
Qed.
Lemma polar_unique r s a b : 0 < r -> 0 < s -> - PI < a <= PI -> - PI < b <= PI -> r * cos a = s * cos b -> r * sin a = s * sin b -> r = s /\ a = b.
Proof.
  intros Hr Hs Ha Hb HC HS. pose proof (sin2_cos2 a) as A. pose proof (sin2_cos2 b) as B. unfold Rsqr in A, B.
  assert (E : r * r = s * s).
  { replace (r * r) with ((r * cos a) * (r * cos a) + (r * sin a) * (r * sin a)) by (replace ((r * cos a) * (r * cos a) + (r * sin a) * (r * sin a)) with (r * r * (sin a * sin a + cos a * cos a)) by ring; rewrite A; ring).
    rewrite HC, HS. replace (s * cos b * (s * cos b) + s * sin b * (s * sin b)) with (s * s * (sin b * sin b + cos b * cos b)) by ring. rewrite B. ring. }
  assert (r = s) by nra. subst s. split; [reflexivity|]. apply angle_unique; auto; apply Rmult_eq_reg_l with r; lra.
Qed.
Lemma principal_unique x y a b : principal_angle x y a -> principal_angle x y b -> a = b.
Proof.
  assert (Z : forall r t, 0 < r -> 0 = r * cos t -> 0 = r * sin t -> False).
  { intros r t Hr HC HS. pose proof (sin2_cos2 t) as A. unfold Rsqr in A. assert (cos t = 0) by nra. assert (sin t = 0) by nra. rewrite H, H0 in A. lra. }
  intros [(-> & -> & ->)|(r & Hr & Ex & Ey & Ba)] [(Hx & Hy & ->)|(s & Hs & Ex' & Ey' & Bb)]; [reflexivity|exfalso; eauto|exfalso; subst x y; symmetry in Hx, Hy; eauto|].
  subst x y. exact (proj2 (polar_unique r s a b Hr Hs Ba Bb Ex' Ey')).
Qed.
Lemma atan2_iff x y t : atan2 y x = t <-> principal_angle x y t.
Proof. split; [intros <-; apply atan2_angle|]. intros H. exact (principal_unique x y _ _ (atan2_angle y x) H). Qed.
