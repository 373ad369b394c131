(** Proofs for T_Vec.v. *)
From Verif Require Import P_Vec.
Open Scope R_scope.

Lemma ops_are_euclidean : forall a b s,
  vadd a b = Plus a b /\ vsub a b = Minus a b /\ vscale a s = Scal s a /\
  c_dot a b = Dot a b /\ c_cross a b = Cross a b /\ vlength a = Norm a /\
  vadds a s = Plus a (CV s s s).
Proof.
  intros. repeat split; [vring|vring|vring|vring|vring|apply vlength_Norm|vring].
Qed.

Lemma vlength_sqr a : vlength a ^ 2 = c_dot a a.
Proof. rewrite vlength_Norm, c_dot_Dot. replace (Norm a ^ 2) with (Norm a * Norm a) by ring. apply Norm_sqr. Qed.

Lemma vector_laws : forall a b c s,
  vadd a b = vadd b a /\ vadd (vadd a b) c = vadd a (vadd b c) /\ vadd a vnull = a /\
  vsub a a = vnull /\
  c_dot a b = c_dot b a /\ c_dot (vadd a b) c = c_dot a c + c_dot b c /\
  c_dot (vscale a s) b = s * c_dot a b /\
  0 <= c_dot a a /\ (c_dot a a = 0 -> a = vnull) /\ vlength a ^ 2 = c_dot a a /\
  c_cross a b = vscale (c_cross b a) (-1) /\
  c_dot a (c_cross a b) = 0 /\ c_dot b (c_cross a b) = 0 /\
  c_cross a (c_cross b c) = vsub (vscale b (c_dot a c)) (vscale c (c_dot a b)) /\
  vlength (c_cross a b) ^ 2 = vlength a ^ 2 * vlength b ^ 2 - c_dot a b ^ 2.
Proof.
  intros.
  split; [vring|]. split; [vring|]. split; [vring|]. split; [vring|]. split; [vring|].
  split; [vring|]. split; [vring|].
  split; [rewrite c_dot_Dot; apply Norm2_nonneg|].
  split; [rewrite c_dot_Dot; apply Norm2_zero|].
  split; [apply vlength_sqr|]. split; [vring|]. split; [vring|]. split; [vring|]. split; [vring|].
  rewrite !vlength_sqr. vring.
Qed.

Lemma normalize_laws : forall a,
  (a <> vnull -> c_dot (vnormalize a) (vnormalize a) = 1 /\
                 a = vscale (vnormalize a) (vlength a) /\ 0 < vlength a) /\
  vnormalize (vnormalize a) = vnormalize a /\
  vnormalize vnull = vnull.
Proof.
  intros a. split; [|split; [apply vnormalize_idem|apply vnormalize_zero]].
  intros H. assert (Hn : Norm a <> 0) by (intros E; apply H, Norm_zero_iff, E).
  split; [rewrite c_dot_Dot; apply vnormalize_unit, H|]. rewrite vlength_Norm.
  split; [|generalize (Norm_nonneg a); lra].
  rewrite vnormalize_nonzero by exact H. rewrite vscale_Scal.
  destruct a; cbn [Scal]. apply vec_eq; field; exact Hn.
Qed.

Lemma division_laws : forall a s,
  (s = 0 -> exists msg, vdiv a s = Err (Throw msg)) /\
  (s <> 0 -> exists r, vdiv a s = Ok r /\ vscale r s = a).
Proof.
  intros a s. split; intros H.
  - subst. rewrite vdiv_zero. eexists; reflexivity.
  - rewrite vdiv_ok by exact H. eexists; split; [reflexivity|]. rewrite vscale_Scal.
    destruct a; cbn [Scal]. apply vec_eq; field; exact H.
Qed.

Lemma list_laws : forall v l i,
  vec_of_list (vtolist v) = Ok v /\
  (forall w, vec_of_list l = Ok w -> vtolist w = l) /\
  (length l <> 3%nat -> exists msg, vec_of_list l = Err (Throw msg)) /\
  vget v i = nth (if Z.eqb i 0 then 0 else if Z.eqb i 1 then 1 else 2)%nat (vtolist v) 0.
Proof.
  intros v l i. split; [destruct v; reflexivity|]. split.
  - intros w Hw. apply vec_of_list_spec in Hw. subst; reflexivity.
  - split.
    + intros H. destruct l as [|a [|b [|c [|]]]]; cbn in *; try (eexists; reflexivity). lia.
    + unfold vget. destruct (Z.eqb i 0); [reflexivity|]. destruct (Z.eqb i 1); reflexivity.
Qed.

Lemma veqb_iff : forall a b, veqb a b = true <-> a = b.
Proof.
  intros [a1 a2 a3] [b1 b2 b3]. unfold veqb. cbn [cx cy cz].
  destruct (Req_EM_T a1 b1), (Req_EM_T a2 b2), (Req_EM_T a3 b3); cbn; split; intros E;
    try discriminate; try (inversion E; congruence); subst; reflexivity.
Qed.

Lemma normalize_345 : CV 3 0 4 <> vnull /\ vnormalize (CV 3 0 4) = CV (3 / 5) 0 (4 / 5).
Proof.
  split; [intros E; inversion E; lra|].
  rewrite vnormalize_nonzero by (intros E; inversion E; lra).
  assert (E : Norm (CV 3 0 4) = 5).
  { unfold Norm. replace (Norm2 (CV 3 0 4)) with (5 * 5) by (vsimp; ring). apply sqrt_square; lra. }
  rewrite E. cbn [Scal]. apply vec_eq; field.
Qed.
Lemma div_246 : vdiv (CV 2 4 6) 2 = Ok (CV 1 2 3).
Proof. rewrite vdiv_ok by lra. f_equal. cbn [Scal]. apply vec_eq; field. Qed.
