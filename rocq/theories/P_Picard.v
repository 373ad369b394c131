(** Existence and uniqueness of solutions of a finite system of bounded Lipschitz differential equations on [0, T]
    (Picard iteration). *)
From Coq Require Import Reals Lra Lia List Psatz.
Import ListNotations.
Open Scope R_scope.

Section Picard.
Context {I : Type} (idx : list I) (F : I -> R -> (I -> R) -> R) (T M L : R).
Definition apart (x y : I -> R) : R := fold_right (fun j s => Rabs (x j - y j) + s) 0 idx.
Context (HT : 0 <= T) (HM : 0 <= M) (HL : 0 <= L).
Context (HB : forall i t x, Rabs (F i t x) <= M).
Context (HLip : forall i t t' x y, Rabs (F i t x - F i t' y) <= L * (Rabs (t - t') + apart x y)).
Context (x0 : I -> R).

Lemma apart_le x y d : (forall j, In j idx -> Rabs (x j - y j) <= d) -> apart x y <= INR (length idx) * d.
Proof.
  unfold apart. induction idx as [|a l IH]; intros H; [cbn; lra|]. cbn [fold_right length]. rewrite S_INR.
  pose proof (IH (fun j Hj => H j (or_intror Hj))). pose proof (H a (or_introl eq_refl)). lra.
Qed.
Lemma apart_nonneg x y : 0 <= apart x y.
Proof. unfold apart. induction idx as [|a l IH]; [cbn; lra|]. cbn [fold_right]. pose proof (Rabs_pos (x a - y a)). lra. Qed.

(** ** Comparison *)
Definition N : R := INR (length idx).
Definition lam : R := 2 * (N * L) + 1.
Lemma N_nonneg : 0 <= N. Proof. apply pos_INR. Qed.
Lemma lam_pos : 0 < lam. Proof. unfold lam. pose proof N_nonneg. assert (0 <= N * L) by (apply Rmult_le_pos; lra). lra. Qed.
Lemma dlim_exp k t : derivable_pt_lim (fun s => exp (k * s)) t (k * exp (k * t)).
Proof.
  rewrite Rmult_comm. apply (derivable_pt_lim_comp (fun s => k * s) exp t k (exp (k * t))); [|apply derivable_pt_lim_exp].
  pose proof (derivable_pt_lim_scal id k t 1 (derivable_pt_lim_id t)) as H. rewrite Rmult_1_r in H. exact H.
Qed.
Lemma compare g g' K : 0 <= K -> (forall t, 0 <= t <= T -> derivable_pt_lim g t (g' t)) -> g 0 = 0 ->
  (forall t, 0 <= t <= T -> Rabs (g' t) <= K * exp (lam * t)) -> forall t, 0 <= t <= T -> Rabs (g t) <= K / lam * exp (lam * t).
Proof.
  intros HK D G0 B t Ht. pose proof lam_pos as LP.
  assert (ONE : forall h h', (forall t, 0 <= t <= T -> derivable_pt_lim h t (h' t)) -> h 0 = 0 -> (forall t, 0 <= t <= T -> h' t <= K * exp (lam * t)) -> h t <= K / lam * exp (lam * t)).
  { intros h h' Dh H0 Bh. destruct (Rle_lt_or_eq_dec 0 t (proj1 Ht)) as [P|<-].
    - destruct (MVT_cor2 (fun s => K / lam * exp (lam * s) - h s) (fun s => K / lam * (lam * exp (lam * s)) - h' s) 0 t P) as (c & E & Ic).
      + intros c Ic. apply (derivable_pt_lim_minus (fun s => K / lam * exp (lam * s)) h); [apply (derivable_pt_lim_scal (fun s => exp (lam * s))), dlim_exp|apply Dh; lra].
      + specialize (Bh c ltac:(lra)). replace (K / lam * (lam * exp (lam * c))) with (K * exp (lam * c)) in E by (field; lra). cbv beta in E. rewrite H0 in E.
        assert (0 <= (K * exp (lam * c) - h' c) * (t - 0)) by (apply Rmult_le_pos; lra). pose proof (exp_pos (lam * 0)). assert (0 <= K / lam) by (apply Rmult_le_pos; [lra|left; apply Rinv_0_lt_compat; lra]).
        assert (0 <= K / lam * exp (lam * 0)) by (apply Rmult_le_pos; lra). lra.
    - rewrite H0. apply Rmult_le_pos; [apply Rmult_le_pos; [lra|left; apply Rinv_0_lt_compat; lra]|left; apply exp_pos]. }
  apply Rabs_le. split.
  - assert (X : - g t <= K / lam * exp (lam * t)); [|lra]. apply (ONE (fun s => - g s) (fun s => - g' s)); [|rewrite G0; ring|].
    + intros s Hs. apply (derivable_pt_lim_opp g). apply D. exact Hs.
    + intros s Hs. specialize (B s Hs). pose proof (Rle_abs (- g' s)) as X. rewrite Rabs_Ropp in X. lra.
  - apply (ONE g g'); [exact D|exact G0|]. intros s Hs. specialize (B s Hs). pose proof (Rle_abs (g' s)). lra.
Qed.
Lemma lipschitz g g' : (forall t, 0 <= t <= T -> derivable_pt_lim g t (g' t)) -> (forall t, 0 <= t <= T -> Rabs (g' t) <= M) ->
  forall s t, 0 <= s <= T -> 0 <= t <= T -> Rabs (g s - g t) <= M * Rabs (s - t).
Proof.
  intros D B. assert (X : forall s t, 0 <= s -> s < t -> t <= T -> Rabs (g s - g t) <= M * Rabs (s - t)).
  { intros s t Hs P Ht. destruct (MVT_cor2 g g' s t P) as (c & E & Ic); [intros c Ic; apply D; lra|].
    rewrite Rabs_minus_sym, E, Rabs_mult, (Rabs_minus_sym s). apply Rmult_le_compat_r; [apply Rabs_pos|apply B; lra]. }
  intros s t Hs Ht. destruct (Rtotal_order s t) as [P|[->|P]].
  - apply X; lra.
  - rewrite !Rminus_diag_eq, Rabs_R0 by reflexivity. lra.
  - rewrite Rabs_minus_sym, (Rabs_minus_sym s). apply X; lra.
Qed.

(** ** Iteration *)
Definition path : Type := { u : I -> R -> R | forall i t, 0 <= t <= T -> continuity_pt (u i) t }.
Definition at_ (w : path) : I -> R -> R := proj1_sig w.
Lemma cont_state (u : I -> R -> R) t : (forall i, continuity_pt (u i) t) -> forall eps, 0 < eps -> exists d, 0 < d /\ forall s, Rabs (s - t) < d -> apart (fun j => u j s) (fun j => u j t) < eps.
Proof.
  intros H. unfold apart. induction idx as [|a l IH]; intros eps He.
  - exists 1. split; [lra|]. intros. cbn. exact He.
  - destruct (IH (eps / 2) ltac:(lra)) as (d & Hd & G). destruct (H a (eps / 2) ltac:(lra)) as (e & He' & G').
    exists (Rmin d e). split; [apply Rmin_pos; lra|]. intros s Hs. cbn [fold_right]. pose proof (Rmin_l d e). pose proof (Rmin_r d e). specialize (G s ltac:(lra)).
    assert (Rabs (u a s - u a t) < eps / 2); [|lra]. destruct (Req_dec s t) as [->|NE]; [rewrite Rminus_diag_eq, Rabs_R0 by reflexivity; lra|].
    apply (G' s). split; [split; [exact Logic.I|auto]|]. cbn. unfold R_dist. lra.
Qed.
Lemma cont_F (w : path) i : forall t, 0 <= t <= T -> continuity_pt (fun t => F i t (fun j => at_ w j t)) t.
Proof.
  intros t Ht eps He. destruct (cont_state (at_ w) t (fun j => proj2_sig w j t Ht) (eps / (2 * (L + 1)))) as (d & Hd & G); [apply Rdiv_lt_0_compat; lra|].
  assert (Q : 0 < eps / (2 * (L + 1))) by (apply Rdiv_lt_0_compat; lra).
  exists (Rmin d (eps / (2 * (L + 1)))). split; [apply Rmin_pos; lra|]. intros s [_ Hs]. cbn in *. unfold R_dist in *.
  pose proof (Rmin_l d (eps / (2 * (L + 1)))). pose proof (Rmin_r d (eps / (2 * (L + 1)))). specialize (G s ltac:(lra)).
  apply Rle_lt_trans with (1 := HLip i s t _ _). set (e := eps / (2 * (L + 1))) in *.
  apply Rle_lt_trans with (L * (2 * e)); [apply Rmult_le_compat_l; lra|]. assert (E : e * (2 * (L + 1)) = eps) by (unfold e; field; lra). nra.
Qed.
Definition primal (w : path) (i : I) : R -> R := primitive HT (FTC_P1 HT (cont_F w i)).
Lemma primal_deriv w i t : 0 <= t <= T -> derivable_pt_lim (primal w i) t (F i t (fun j => at_ w j t)).
Proof. intros Ht. exact (@RiemannInt_P28 (fun t => F i t (fun j => at_ w j t)) 0 T t HT (cont_F w i) Ht). Qed.
Lemma primal_0 w i : primal w i 0 = 0.
Proof.
  unfold primal, primitive. destruct (Rle_dec 0 0) as [a|n]; [|exfalso; apply n; lra]. destruct (Rle_dec 0 T) as [b|n]; [|exfalso; apply n; exact HT]. apply RiemannInt_P9.
Qed.
Lemma next_deriv w i t : 0 <= t <= T -> derivable_pt_lim (fun s => x0 i + primal w i s) t (F i t (fun j => at_ w j t)).
Proof.
  intros Ht. replace (F i t (fun j => at_ w j t)) with (0 + F i t (fun j => at_ w j t)) by ring.
  apply (derivable_pt_lim_plus (fun _ => x0 i) (primal w i)); [apply derivable_pt_lim_const|apply primal_deriv; exact Ht].
Qed.
Lemma next_cont w i t : 0 <= t <= T -> continuity_pt (fun s => x0 i + primal w i s) t.
Proof. intros Ht. apply derivable_continuous_pt. eexists. exact (next_deriv w i t Ht). Qed.
Definition next (w : path) : path := exist _ (fun i t => x0 i + primal w i t) (next_cont w).
Lemma const_cont (i : I) t : 0 <= t <= T -> continuity_pt (fun _ => x0 i) t.
Proof. intros _. apply continuity_pt_const. intros x y. reflexivity. Qed.
Fixpoint it (k : nat) : path := match k with O => exist _ (fun i _ => x0 i) const_cont | S k => next (it k) end.
Lemma next_start w i : at_ (next w) i 0 = x0 i.
Proof. cbn. rewrite primal_0. ring. Qed.
Lemma it_start k i : at_ (it k) i 0 = x0 i.
Proof. destruct k; [reflexivity|apply next_start]. Qed.

Definition c0 : R := M * T.
Lemma c0_nonneg : 0 <= c0. Proof. apply Rmult_le_pos; assumption. Qed.
Lemma exp_ge_1 x : 0 <= x -> 1 <= exp x.
Proof. intros [H| <-]; [|rewrite exp_0; lra]. pose proof (exp_ineq1 x ltac:(lra)). lra. Qed.
Lemma half_pos k : 0 < (/ 2) ^ k. Proof. apply pow_lt. lra. Qed.
(** Two paths closer than [c exp (lam t)] are mapped to paths twice as close. *)
Lemma next_close w v c : 0 <= c -> (forall i t, 0 <= t <= T -> Rabs (at_ w i t - at_ v i t) <= c * exp (lam * t)) ->
  forall i t, 0 <= t <= T -> Rabs (at_ (next w) i t - at_ (next v) i t) <= / 2 * c * exp (lam * t).
Proof.
  intros Hc H i t Ht. pose proof lam_pos as LP. pose proof N_nonneg as NN.
  apply Rle_trans with ((L * (N * c)) / lam * exp (lam * t)).
  - apply (compare (fun s => at_ (next w) i s - at_ (next v) i s) (fun s => F i s (fun j => at_ w j s) - F i s (fun j => at_ v j s))); [| | | |exact Ht].
    + repeat apply Rmult_le_pos; assumption.
    + intros s Hs. apply (derivable_pt_lim_minus (at_ (next w) i) (at_ (next v) i)); apply next_deriv; exact Hs.
    + rewrite !next_start. ring.
    + intros s Hs. apply Rle_trans with (1 := HLip i s s _ _). rewrite (Rminus_diag_eq s s eq_refl), Rabs_R0, Rplus_0_l.
      replace (L * (N * c) * exp (lam * s)) with (L * (N * (c * exp (lam * s)))) by ring. apply Rmult_le_compat_l; [exact HL|].
      apply apart_le. intros j _. apply H. exact Hs.
  - apply Rmult_le_compat_r; [left; apply exp_pos|]. apply (Rmult_le_reg_r lam); [exact LP|]. unfold Rdiv. rewrite Rmult_assoc, Rinv_l, Rmult_1_r by lra. unfold lam. nra.
Qed.
Lemma it_close k : forall i t, 0 <= t <= T -> Rabs (at_ (it (S k)) i t - at_ (it k) i t) <= (/ 2) ^ k * c0 * exp (lam * t).
Proof.
  induction k as [|k IH]; intros i t Ht.
  - rewrite pow_O, Rmult_1_l. pose proof lam_pos. assert (E1 : 1 <= exp (lam * t)) by (apply exp_ge_1, Rmult_le_pos; lra).
    assert (X : Rabs (at_ (it 1) i t - at_ (it 1) i 0) <= M * Rabs (t - 0)).
    { apply (lipschitz (at_ (it 1) i) (fun s => F i s (fun j => at_ (it 0) j s))); [intros s Hs; apply next_deriv; exact Hs|intros s Hs; apply HB|exact Ht|lra]. }
    rewrite it_start in X. change (at_ (it 0) i t) with (x0 i). rewrite Rminus_0_r, (Rabs_pos_eq t) in X by lra. apply Rle_trans with (1 := X).
    apply Rle_trans with (c0 * 1); [unfold c0; rewrite Rmult_1_r; apply Rmult_le_compat_l; lra|apply Rmult_le_compat_l; [apply c0_nonneg|exact E1]].
  - cbn [pow]. replace (/ 2 * (/ 2) ^ k * c0) with (/ 2 * ((/ 2) ^ k * c0)) by ring. apply (next_close (it (S k)) (it k)); [|exact IH|exact Ht].
    apply Rmult_le_pos; [left; apply half_pos|apply c0_nonneg].
Qed.
Definition A : R := 2 * c0 * exp (lam * T).
Lemma A_nonneg : 0 <= A. Proof. unfold A. pose proof c0_nonneg. pose proof (exp_pos (lam * T)). apply Rmult_le_pos; lra. Qed.
Lemma it_tail k m : forall i t, 0 <= t <= T -> Rabs (at_ (it (k + m)) i t - at_ (it k) i t) <= (/ 2) ^ k * A * (1 - (/ 2) ^ m).
Proof.
  intros i t Ht. induction m as [|m IH].
  - rewrite Nat.add_0_r, Rminus_diag_eq, Rabs_R0 by reflexivity. cbn. lra.
  - rewrite Nat.add_succ_r. pose proof (it_close (k + m) i t Ht) as C. pose proof (Rabs_triang (at_ (it (S (k + m))) i t - at_ (it (k + m)) i t) (at_ (it (k + m)) i t - at_ (it k) i t)) as TR.
    replace (at_ (it (S (k + m))) i t - at_ (it (k + m)) i t + (at_ (it (k + m)) i t - at_ (it k) i t)) with (at_ (it (S (k + m))) i t - at_ (it k) i t) in TR by ring.
    assert (E : exp (lam * t) <= exp (lam * T)). { pose proof lam_pos. assert (Q : lam * t <= lam * T) by (apply Rmult_le_compat_l; lra). destruct Q as [Q| ->]; [left; apply exp_increasing; exact Q|lra]. }
    assert (C2 : (/ 2) ^ (k + m) * c0 * exp (lam * t) <= (/ 2) ^ (k + m) * c0 * exp (lam * T)) by (apply Rmult_le_compat_l; [apply Rmult_le_pos; [left; apply half_pos|apply c0_nonneg]|exact E]).
    rewrite pow_add in *. cbn [pow]. unfold A in *. set (a := (/ 2) ^ k) in *. set (b := (/ 2) ^ m) in *. lra.
Qed.
Lemma half_small e : 0 < e -> exists k, (/ 2) ^ k * A < e.
Proof.
  intros He. destruct (pow_lt_1_zero (/ 2) ltac:(rewrite Rabs_pos_eq; lra) (e / (A + 1))) as [k Hk]; [pose proof A_nonneg; apply Rdiv_lt_0_compat; lra|].
  exists k. specialize (Hk k (le_n k)). pose proof (half_pos k). rewrite Rabs_pos_eq in Hk by lra. pose proof A_nonneg.
  assert ((/ 2) ^ k * (A + 1) < e / (A + 1) * (A + 1)) by (apply Rmult_lt_compat_r; lra). replace (e / (A + 1) * (A + 1)) with e in * by (field; lra). lra.
Qed.
Lemma it_cauchy i t : 0 <= t <= T -> Cauchy_crit (fun k => at_ (it k) i t).
Proof.
  intros Ht e He. destruct (half_small (e / 2) ltac:(lra)) as [k Hk]. exists k. intros n m Hn Hm. unfold R_dist.
  assert (G : forall n, (n >= k)%nat -> Rabs (at_ (it n) i t - at_ (it k) i t) < e / 2).
  { intros p Hp. replace p with (k + (p - k))%nat by lia. apply Rle_lt_trans with (1 := it_tail k (p - k) i t Ht). pose proof (half_pos (p - k)). pose proof (half_pos k). pose proof A_nonneg. assert (0 <= (/ 2) ^ k * A) by (apply Rmult_le_pos; lra). nra. }
  pose proof (G n Hn). pose proof (G m Hm) as G2. rewrite Rabs_minus_sym in G2.
  pose proof (Rabs_triang (at_ (it n) i t - at_ (it k) i t) (at_ (it k) i t - at_ (it m) i t)) as TR.
  replace (at_ (it n) i t - at_ (it k) i t + (at_ (it k) i t - at_ (it m) i t)) with (at_ (it n) i t - at_ (it m) i t) in TR by ring. lra.
Qed.
Definition cl (t : R) : R := Rmax 0 (Rmin t T).
Lemma cl_in t : 0 <= cl t <= T.
Proof. unfold cl. split; [apply Rmax_l|]. apply Rmax_lub; [exact HT|apply Rmin_r]. Qed.
Lemma cl_id t : 0 <= t <= T -> cl t = t.
Proof. intros H. unfold cl. rewrite Rmin_left, Rmax_right by lra. reflexivity. Qed.
Lemma cl_lip s t : Rabs (cl s - cl t) <= Rabs (s - t).
Proof. unfold cl, Rmax, Rmin. repeat destruct (Rle_dec _ _); unfold Rabs; repeat destruct (Rcase_abs _); lra. Qed.
Definition lim (i : I) (t : R) : R := proj1_sig (R_complete _ (it_cauchy i (cl t) (cl_in t))).
Lemma lim_spec i t : 0 <= t <= T -> Un_cv (fun k => at_ (it k) i t) (lim i t).
Proof. intros Ht. unfold lim. destruct (R_complete _ _) as [l Hl]. cbn. rewrite (cl_id t Ht) in Hl. exact Hl. Qed.
Lemma lim_close k i t : 0 <= t <= T -> Rabs (lim i t - at_ (it k) i t) <= (/ 2) ^ k * A.
Proof.
  intros Ht. apply Rnot_lt_le. intros H. set (g := Rabs (lim i t - at_ (it k) i t) - (/ 2) ^ k * A) in *.
  destruct (lim_spec i t Ht (g / 2)) as [n Hn]; [unfold g; lra|]. specialize (Hn (k + n)%nat ltac:(lia)). unfold R_dist in Hn.
  pose proof (it_tail k n i t Ht) as C. pose proof (half_pos n). pose proof (half_pos k). pose proof A_nonneg. assert (0 <= (/ 2) ^ k * A) by (apply Rmult_le_pos; lra).
  pose proof (Rabs_triang (lim i t - at_ (it (k + n)) i t) (at_ (it (k + n)) i t - at_ (it k) i t)) as TR.
  replace (lim i t - at_ (it (k + n)) i t + (at_ (it (k + n)) i t - at_ (it k) i t)) with (lim i t - at_ (it k) i t) in TR by ring. rewrite (Rabs_minus_sym (lim i t) (at_ (it (k + n)) i t)) in TR.
  assert ((/ 2) ^ k * A * (1 - (/ 2) ^ n) <= (/ 2) ^ k * A) by nra. unfold g in *. lra.
Qed.
Lemma lim_lip i s t : 0 <= s <= T -> 0 <= t <= T -> Rabs (lim i s - lim i t) <= M * Rabs (s - t).
Proof.
  intros Hs Ht. apply Rnot_lt_le. intros H. destruct (half_small ((Rabs (lim i s - lim i t) - M * Rabs (s - t)) / 2) ltac:(lra)) as [k Hk].
  assert (K1 : (/ 2) ^ S k * A <= (/ 2) ^ k * A) by (cbn [pow]; pose proof (half_pos k); pose proof A_nonneg; assert (0 <= (/ 2) ^ k * A) by (apply Rmult_le_pos; lra); lra).
  pose proof (lim_close (S k) i s Hs) as C1. pose proof (lim_close (S k) i t Ht) as C2. rewrite Rabs_minus_sym in C2.
  assert (C3 : Rabs (at_ (it (S k)) i s - at_ (it (S k)) i t) <= M * Rabs (s - t)).
  { apply (lipschitz (at_ (it (S k)) i) (fun s => F i s (fun j => at_ (it k) j s))); try assumption; [intros r Hr; apply next_deriv; exact Hr|intros r Hr; apply HB]. }
  pose proof (Rabs_triang (lim i s - at_ (it (S k)) i s) (at_ (it (S k)) i s - at_ (it (S k)) i t + (at_ (it (S k)) i t - lim i t))) as T1.
  pose proof (Rabs_triang (at_ (it (S k)) i s - at_ (it (S k)) i t) (at_ (it (S k)) i t - lim i t)) as T2.
  replace (lim i s - at_ (it (S k)) i s + (at_ (it (S k)) i s - at_ (it (S k)) i t + (at_ (it (S k)) i t - lim i t))) with (lim i s - lim i t) in T1 by ring. lra.
Qed.
Lemma lim_cont i t : 0 <= t <= T -> continuity_pt (lim i) t.
Proof.
  intros Ht e He. exists (e / (M + 1)). split; [apply Rdiv_lt_0_compat; lra|]. intros s [_ Hs]. cbn in *. unfold R_dist in *.
  assert (E : lim i s = lim i (cl s)).
  { pose proof (cl_in s) as CI. unfold lim. destruct (R_complete (fun k => at_ (it k) i (cl s)) _) as [l Hl], (R_complete (fun k => at_ (it k) i (cl (cl s))) _) as [l' Hl']. cbn.
    rewrite (cl_id (cl s) CI) in Hl'. exact (UL_sequence _ _ _ Hl Hl'). }
  rewrite E. apply Rle_lt_trans with (1 := lim_lip i (cl s) t (cl_in s) Ht). pose proof (cl_lip s t) as C. rewrite (cl_id t Ht) in C.
  apply Rle_lt_trans with (M * Rabs (s - t)); [apply Rmult_le_compat_l; lra|]. pose proof (Rabs_pos (s - t)).
  assert ((M + 1) * Rabs (s - t) < (M + 1) * (e / (M + 1))) by (apply Rmult_lt_compat_l; lra). replace ((M + 1) * (e / (M + 1))) with e in * by (field; lra). lra.
Qed.
Definition limit_path : path := exist _ lim lim_cont.
Lemma limit_fixed i t : 0 <= t <= T -> at_ (next limit_path) i t = lim i t.
Proof.
  intros Ht. apply cond_eq. intros e He. set (B := A * exp (lam * T) + 1). assert (HBp : 1 <= B) by (unfold B; pose proof A_nonneg; pose proof (exp_pos (lam * T)); assert (0 <= A * exp (lam * T)) by (apply Rmult_le_pos; lra); lra).
  assert (EX : exp (lam * t) <= exp (lam * T)). { pose proof lam_pos. assert (Q : lam * t <= lam * T) by (apply Rmult_le_compat_l; lra). destruct Q as [Q| ->]; [left; apply exp_increasing; exact Q|lra]. }
  assert (E1 : forall s, 0 <= s <= T -> 1 <= exp (lam * s)) by (intros s Hs; pose proof lam_pos; apply exp_ge_1, Rmult_le_pos; lra).
  destruct (half_small (e / (2 * (exp (lam * T) + 1)))) as [k Hk]; [apply Rdiv_lt_0_compat; [lra|]; pose proof (exp_pos (lam * T)); lra|].
  set (d := (/ 2) ^ k * A) in *. assert (D0 : 0 <= d) by (apply Rmult_le_pos; [left; apply half_pos|apply A_nonneg]).
  assert (PC : forall i s, 0 <= s <= T -> Rabs (at_ limit_path i s - at_ (it k) i s) <= d * exp (lam * s)).
  { intros i' s Hs. apply Rle_trans with (1 := lim_close k i' s Hs). fold d. pose proof (E1 s Hs). nra. }
  pose proof (next_close limit_path (it k) d D0 PC i t Ht) as NC.
  pose proof (lim_close (S k) i t Ht) as LC. rewrite Rabs_minus_sym in LC. change (next (it k)) with (it (S k)) in NC.
  pose proof (Rabs_triang (at_ (next limit_path) i t - at_ (it (S k)) i t) (at_ (it (S k)) i t - lim i t)) as TR.
  replace (at_ (next limit_path) i t - at_ (it (S k)) i t + (at_ (it (S k)) i t - lim i t)) with (at_ (next limit_path) i t - lim i t) in TR by ring.
  assert (K1 : (/ 2) ^ S k * A = / 2 * d) by (unfold d; cbn [pow]; ring). rewrite K1 in LC.
  assert (NC2 : / 2 * d * exp (lam * t) <= / 2 * d * exp (lam * T)) by (apply Rmult_le_compat_l; lra).
  pose proof (exp_pos (lam * T)) as XP. assert (Q : d * (2 * (exp (lam * T) + 1)) < e / (2 * (exp (lam * T) + 1)) * (2 * (exp (lam * T) + 1))) by (apply Rmult_lt_compat_r; lra).
  replace (e / (2 * (exp (lam * T) + 1)) * (2 * (exp (lam * T) + 1))) with e in Q by (field; lra). assert (0 <= d * exp (lam * T)) by (apply Rmult_le_pos; lra). lra.
Qed.
Theorem picard : exists u : I -> R -> R, forall i, u i 0 = x0 i /\ forall t, 0 <= t <= T -> derivable_pt_lim (u i) t (F i t (fun j => u j t)).
Proof.
  exists (at_ (next limit_path)). intros i. split; [apply next_start|]. intros t Ht. pose proof (next_deriv limit_path i t Ht) as D.
  replace (F i t (fun j => at_ (next limit_path) j t)) with (F i t (fun j => at_ limit_path j t)); [exact D|].
  apply Rminus_diag_uniq. pose proof (HLip i t t (fun j => at_ limit_path j t) (fun j => at_ (next limit_path) j t)) as H.
  rewrite (Rminus_diag_eq t t eq_refl), Rabs_R0, Rplus_0_l in H.
  assert (Z : apart (fun j => at_ limit_path j t) (fun j => at_ (next limit_path) j t) <= INR (length idx) * 0).
  { apply apart_le. intros j _. rewrite (limit_fixed j t Ht). change (at_ limit_path j t) with (lim j t). rewrite Rminus_diag_eq, Rabs_R0 by reflexivity. lra. }
  rewrite Rmult_0_r in Z. pose proof (apart_nonneg (fun j => at_ limit_path j t) (fun j => at_ (next limit_path) j t)) as P. set (z := apart _ _) in *.
  set (y := _ - _) in *. assert (z = 0) by lra. assert (Y : Rabs y <= 0) by nra. pose proof (Rabs_pos y). destruct (Req_dec y 0) as [E|E]; [exact E|]. apply Rabs_pos_lt in E. lra.
Qed.

(** ** Uniqueness *)
Definition square (x y : I -> R) : R := fold_right (fun j s => (x j - y j) * (x j - y j) + s) 0 idx.
Lemma square_deriv (u v du dv : I -> R -> R) t : (forall j, In j idx -> derivable_pt_lim (u j) t (du j t) /\ derivable_pt_lim (v j) t (dv j t)) ->
  derivable_pt_lim (fun s => square (fun j => u j s) (fun j => v j s)) t (fold_right (fun j s => 2 * (u j t - v j t) * (du j t - dv j t) + s) 0 idx).
Proof.
  unfold square. induction idx as [|a l IH]; intros H; [cbn; apply derivable_pt_lim_const|]. cbn [fold_right].
  destruct (H a (or_introl eq_refl)) as [D1 D2]. pose proof (derivable_pt_lim_minus _ _ _ _ _ D1 D2) as D.
  apply (derivable_pt_lim_plus (fun s => (u a s - v a s) * (u a s - v a s)) (fun s => fold_right (fun j s0 => (u j s - v j s) * (u j s - v j s) + s0) 0 l)); [|apply IH; intros j Hj; apply H; right; exact Hj].
  pose proof (derivable_pt_lim_mult _ _ _ _ _ D D) as X. unfold minus_fct, mult_fct in X. replace (2 * (u a t - v a t) * (du a t - dv a t)) with ((du a t - dv a t) * (u a t - v a t) + (u a t - v a t) * (du a t - dv a t)) by ring. exact X.
Qed.
Lemma square_nonneg x y : 0 <= square x y.
Proof. unfold square. induction idx as [|a l IH]; [cbn; lra|]. cbn [fold_right]. pose proof (Rle_0_sqr (x a - y a)). unfold Rsqr in *. lra. Qed.
Lemma apart_square x y : apart x y * apart x y <= N * square x y.
Proof.
  unfold N, apart, square. induction idx as [|a l IH]; [cbn; lra|]. cbn [fold_right length]. rewrite S_INR.
  set (s := fold_right (fun j s => Rabs (x j - y j) + s) 0 l) in *. set (q := fold_right (fun j s => (x j - y j) * (x j - y j) + s) 0 l) in *.
  assert (Q0 : 0 <= q) by (clear IH; unfold q; clear; induction l as [|b l IHl]; [cbn; lra|cbn [fold_right]; pose proof (Rle_0_sqr (x b - y b)); unfold Rsqr in *; lra]).
  assert (S0 : 0 <= s) by (clear IH; unfold s; clear; induction l as [|b l IHl]; [cbn; lra|cbn [fold_right]; pose proof (Rabs_pos (x b - y b)); lra]).
  pose proof (Rabs_pos (x a - y a)) as R0. replace ((x a - y a) * (x a - y a)) with (Rabs (x a - y a) * Rabs (x a - y a)) by (rewrite <- Rabs_mult; apply Rabs_pos_eq; apply Rle_0_sqr).
  set (r := Rabs (x a - y a)) in *. set (n := INR (length l)) in *. assert (N0 : 0 <= n) by apply pos_INR. clearbody s q r n.
  (* (r + s)^2 <= (n + 1)(r^2 + q), s^2 <= n q *)
  assert (K : 2 * r * s <= n * (r * r) + q); [|nra].
  destruct (Req_dec n 0) as [->|NZ]; [assert (s = 0) by nra; subst s; nra|].
  assert (NP : 0 < n) by lra. apply (Rmult_le_reg_l n); [exact NP|]. assert (0 <= (n * r - s) * (n * r - s)) by apply Rle_0_sqr. nra.
Qed.
Theorem picard_unique (u v du dv : I -> R -> R) :
  (forall j t, In j idx -> 0 <= t <= T -> derivable_pt_lim (u j) t (du j t) /\ du j t = F j t (fun k => u k t)) ->
  (forall j t, In j idx -> 0 <= t <= T -> derivable_pt_lim (v j) t (dv j t) /\ dv j t = F j t (fun k => v k t)) ->
  (forall j, In j idx -> u j 0 = v j 0) -> forall t, 0 <= t <= T -> forall j, In j idx -> u j t = v j t.
Proof.
  intros HU HV H0 t Ht j Hj. set (D := fun s => square (fun k => u k s) (fun k => v k s)).
  set (D' := fun t => fold_right (fun j s => 2 * (u j t - v j t) * (du j t - dv j t) + s) 0 idx).
  assert (DD : forall s, 0 <= s <= T -> derivable_pt_lim D s (D' s)) by (intros s Hs; apply square_deriv; intros k Hk; split; [apply HU|apply HV]; assumption).
  set (K := 2 * L * N). assert (DB : forall s, 0 <= s <= T -> D' s <= K * D s).
  { intros s Hs. assert (X : D' s <= 2 * L * (apart (fun k => u k s) (fun k => v k s) * apart (fun k => u k s) (fun k => v k s))).
    - set (a := apart (fun k => u k s) (fun k => v k s)). assert (A0 : 0 <= a) by apply apart_nonneg.
      assert (Y : forall l, incl l idx -> fold_right (fun j s0 => 2 * (u j s - v j s) * (du j s - dv j s) + s0) 0 l <= 2 * L * (a * fold_right (fun j s0 => Rabs (u j s - v j s) + s0) 0 l)).
      { induction l as [|b l IH]; intros Hl; [cbn; lra|]. cbn [fold_right]. assert (Hb : In b idx) by (apply Hl; left; reflexivity).
        specialize (IH (fun k Hk => Hl k (or_intror Hk))). destruct (HU b s Hb Hs) as [_ E1], (HV b s Hb Hs) as [_ E2]. pose proof (HLip b s s (fun k => u k s) (fun k => v k s)) as LP.
        rewrite <- E1, <- E2, (Rminus_diag_eq s s eq_refl), Rabs_R0, Rplus_0_l in LP. fold a in LP.
        pose proof (Rle_abs ((u b s - v b s) * (du b s - dv b s))) as AB. rewrite Rabs_mult in AB. pose proof (Rabs_pos (u b s - v b s)).
        assert (Rabs (u b s - v b s) * Rabs (du b s - dv b s) <= Rabs (u b s - v b s) * (L * a)) by (apply Rmult_le_compat_l; lra). lra. }
      exact (Y idx (fun k Hk => Hk)).
    - apply Rle_trans with (1 := X). unfold K. replace (2 * L * N * D s) with (2 * L * (N * D s)) by ring. apply Rmult_le_compat_l; [lra|]. apply apart_square. }
  assert (D00 : D 0 = 0).
  { unfold D, square. clear -H0. revert H0. induction idx as [|a l IH]; intros H0; [reflexivity|]. cbn [fold_right]. rewrite (H0 a (or_introl eq_refl)), (IH (fun k Hk => H0 k (or_intror Hk))). ring. }
  assert (DZ : D t = 0).
  { destruct (Rle_lt_or_eq_dec 0 t (proj1 Ht)) as [P|<-]; [|exact D00].
    destruct (MVT_cor2 (fun s => D s * exp (- K * s)) (fun s => D' s * exp (- K * s) + D s * (- K * exp (- K * s))) 0 t P) as (c & E & Ic).
    - intros c Ic. apply (derivable_pt_lim_mult D (fun s => exp (- K * s))); [apply DD; lra|apply dlim_exp].
    - cbv beta in E. rewrite D00, Rmult_0_l, Rminus_0_r in E. pose proof (DB c ltac:(lra)). pose proof (exp_pos (- K * c)). pose proof (exp_pos (- K * t)).
      assert (D' c * exp (- K * c) + D c * (- K * exp (- K * c)) <= 0) by (replace (D' c * exp (- K * c) + D c * (- K * exp (- K * c))) with (- ((K * D c - D' c) * exp (- K * c))) by ring; assert (0 <= (K * D c - D' c) * exp (- K * c)) by (apply Rmult_le_pos; lra); lra).
      assert (D t * exp (- K * t) <= 0) by (rewrite E; nra). pose proof (square_nonneg (fun k => u k t) (fun k => v k t)) as SN. fold (D t) in SN. nra. }
  apply Rminus_diag_uniq. unfold D, square in DZ. clear -DZ Hj. revert DZ Hj. induction idx as [|a l IH]; intros Z [].
  - subst a. cbn [fold_right] in Z. assert (0 <= fold_right (fun j s => (u j t - v j t) * (u j t - v j t) + s) 0 l) by (clear; induction l as [|b l IHl]; [cbn; lra|cbn [fold_right]; pose proof (Rle_0_sqr (u b t - v b t)); unfold Rsqr in *; lra]). nra.
  - cbn [fold_right] in Z. apply IH; [|assumption]. assert (0 <= fold_right (fun j s => (u j t - v j t) * (u j t - v j t) + s) 0 l) by (clear; induction l as [|b l IHl]; [cbn; lra|cbn [fold_right]; pose proof (Rle_0_sqr (u b t - v b t)); unfold Rsqr in *; lra]).
    pose proof (Rle_0_sqr (u a t - v a t)). unfold Rsqr in *. lra.
Qed.
End Picard.
