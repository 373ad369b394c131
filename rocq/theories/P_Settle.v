(** Damped conservative stacks approach equilibrium. *)
From Verif Require Import P_Exchange P_Alone P_RunProps P_LayerProps P_Step4 P_Converge P_ConvergeRun P_Metric P_Vec P_Regular P_StackEnergy P_StackEnergyRun P_Exists P_Global.
From Verif Require Export S_Exists.
From Coq Require Import Reals Lra Lia Psatz.
Open Scope R_scope.

(** ** Bounds *)
Lemma dom0 v b w : Norm v <= 2 -> Norm b <= 2 -> Norm w <= 2 -> dom 0 (PT 0 v b w).
Proof. intros. unfold dom. cbn. repeat split; try assumption; lra. Qed.
Lemma energy_bound : forall ls, exists B, 0 <= B /\ forall ms, (forall m, In m ms -> Norm m <= 2) -> Rabs (stack_energy ls ms) <= B.
Proof.
  induction ls as [|[l i] ls (B & HB & IH)]; [exists 0; split; [lra|]; intros; cbn; rewrite Rabs_R0; lra|].
  destruct (own_lip l i) as (B1 & _K1 & H1 & _ & F1), (pair_lip l i) as (B2 & _K2 & H2 & _ & F2). exists (B + B1 + B2). split; [lra|].
  intros ms H. destruct ms as [|m ms]; [cbn; rewrite Rabs_R0; lra|]. cbn [stack_energy]. pose proof zero_small as Z. pose proof (H m (or_introl eq_refl)) as Hm.
  specialize (IH ms (fun x Hx => H x (or_intror Hx))). destruct (F1 _ (dom0 m Zero Zero Hm Z Z)) as [O _]. cbn [pt_v] in O.
  assert (P : Rabs (match ms with [] => 0 | c :: _ => pair_energy l i m c end) <= B2).
  { destruct ms as [|c ms]; [rewrite Rabs_R0; lra|]. destruct (F2 _ (dom0 m Zero c Hm Z (H c (or_intror (or_introl eq_refl))))) as [X _]. exact X. }
  set (p := match ms with [] => 0 | c :: _ => pair_energy l i m c end) in *. pose proof (Rabs_triang (own_energy l i m + p) (stack_energy ls ms)). pose proof (Rabs_triang (own_energy l i m) p). lra.
Qed.
Lemma field_on_lip l i : vbl 0 (fun x => field_on l i (pt_v x) (pt_b x) (pt_w x)).
Proof.
  pose proof (vbl_v 0) as V. pose proof (vbl_b 0) as B. pose proof (vbl_w 0) as W. unfold field_on, H_eff. cbn [Sum fold_right]. unfold IEC_total, IDMI_total, dipole_total, H_anis, H_iec, H_idmi, H_tensor. unfold Rdiv.
  repeat first [apply vbl_plus | apply vbl_scal | apply vbl_cross | apply vbl_matvec | apply bl_mult | apply bl_plus | apply bl_dot | apply bl_const | apply vbl_const | exact V | exact B | exact W].
Qed.
Lemma loss_lip l i : bl 0 (fun x => loss_rate l i (pt_v x) (pt_b x) (pt_w x)).
Proof.
  unfold loss_rate. apply bl_mult; [apply bl_const|]. unfold Norm2. pose proof (vbl_v 0) as V. pose proof (field_on_lip l i) as F.
  apply bl_dot; apply (vbl_cross 0 pt_v (fun x => field_on l i (pt_v x) (pt_b x) (pt_w x))); assumption.
Qed.
Lemma losses_lip : forall ls, exists K, 0 <= K /\ forall b b' vs ws d, 0 <= d -> length vs = length ws -> Norm b <= 2 -> Norm b' <= 2 -> Distance b b' <= d ->
  (forall p v w, nth_error vs p = Some v -> nth_error ws p = Some w -> Norm v <= 2 /\ Norm w <= 2 /\ Distance v w <= d) ->
  Rabs (losses b ls vs - losses b' ls ws) <= K * d.
Proof.
  induction ls as [|[l i] ls (K & HK & IH)].
  - exists 0. split; [lra|]. intros. cbn. rewrite Rminus_diag_eq, Rabs_R0 by reflexivity. lra.
  - destruct (loss_lip l i) as (B1 & K1 & _ & HK1 & F1). exists (K + 3 * K1). split; [lra|]. intros b b' vs ws d Hd HL Nb Nb' Db H. destruct vs as [|v vs], ws as [|w ws]; try discriminate.
    + cbn. rewrite Rminus_diag_eq, Rabs_R0 by reflexivity. apply Rmult_le_pos; lra.
    + injection HL as HL. cbn [losses]. destruct (H 0%nat v w eq_refl eq_refl) as (N1 & N2 & N3).
      specialize (IH v w vs ws d Hd HL N1 N2 N3 (fun p a c A C => H (S p) a c A C)).
      assert (HH : Norm (hd Zero vs) <= 2 /\ Norm (hd Zero ws) <= 2 /\ Distance (hd Zero vs) (hd Zero ws) <= d).
      { destruct vs as [|v1 vs], ws as [|w1 ws]; try discriminate; [cbn [hd]; rewrite Distance_refl; pose proof zero_small; auto|]. exact (H 1%nat v1 w1 eq_refl eq_refl). }
      destruct HH as (M1 & M2 & M3). destruct (F1 _ (dom0 v b (hd Zero vs) N1 Nb M1)) as [_ G]. specialize (G _ (dom0 w b' (hd Zero ws) N2 Nb' M2)). unfold gap in G. cbn [pt_t pt_v pt_b pt_w] in G.
      rewrite (Rminus_diag_eq 0 0 eq_refl), Rabs_R0 in G. assert (G2 : K1 * (0 + Distance v w + Distance b b' + Distance (hd Zero vs) (hd Zero ws)) <= K1 * (3 * d)) by (apply Rmult_le_compat_l; lra).
      set (a1 := loss_rate l i v b (hd Zero vs)) in *. set (a2 := loss_rate l i w b' (hd Zero ws)) in *. set (s1 := losses v ls vs) in *. set (s2 := losses w ls ws) in *.
      replace (a1 + s1 - (a2 + s2)) with ((a1 - a2) + (s1 - s2)) by ring. pose proof (Rabs_triang (a1 - a2) (s1 - s2)). lra.
Qed.
Lemma steady_rhs l i t s v b w d : conservative_layer l i -> rhs l t v b w d -> rhs l s v b w d.
Proof.
  intros (ST & S1 & S2 & _) (i' & I & A & B & D). assert (i' = i) by (rewrite (P_Regular.ins_ok _ _ _ I), (P_Regular.ins_ok _ _ _ (ST t)); reflexivity). subst i'.
  exists i. split; [apply ST|]. split; [exact A|]. split; [exact B|]. inversion D; subst; try congruence. apply llg_plain; assumption.
Qed.
Lemma steady_speed ls : conservative ls -> exists M, 0 <= M /\ forall l i t v b w d, In (l, i) ls -> Norm v <= 2 -> Norm b <= 2 -> Norm w <= 2 -> rhs l t v b w d -> Norm d <= M.
Proof.
  intros (HC & _). destruct (tame_layers 0 (layers ls)) as (M & L & HM & _ & HR).
  - intros l Hl. unfold layers in Hl. apply in_map_iff in Hl. destruct Hl as ([l0 i0] & <- & Hi). apply (conservative_tame 0 l0 i0), HC, Hi.
  - exists M. split; [exact HM|]. intros l i t v b w d Hi Nv Nb Nw D. assert (Hl : In l (layers ls)) by (apply in_map_iff; exists (l, i); auto).
    apply (HR l Hl 0 v b w d); try assumption; [lra|]. exact (steady_rhs l i t 0 v b w d (HC l i Hi) D).
Qed.
(** Each layer loses at most as much as all of them. *)
Lemma loss_rate_nonneg l i m b c : 0 <= moment l -> 0 <= l_damping l -> 0 <= loss_rate l i m b c.
Proof.
  intros A B. unfold loss_rate. apply Rmult_le_pos; [|apply Norm2_nonneg]. apply Rmult_le_pos; [exact A|]. apply Rmult_le_pos; [apply Rmult_le_pos; [left; apply gamma_pos|exact B]|left; apply Rinv_0_lt_compat; nra].
Qed.
Lemma one_loss : forall ls b ms, (forall l i, In (l, i) ls -> 0 <= moment l /\ 0 <= l_damping l) ->
  forall p l i m, nth_error ls p = Some (l, i) -> nth_error ms p = Some m -> loss_rate l i m (match p with O => b | S k => nth k ms Zero end) (nth (S p) ms Zero) <= losses b ls ms.
Proof.
  induction ls as [|[l0 i0] ls IH]; intros b ms H p l i m Hp Hm; [destruct p; discriminate|]. destruct ms as [|m0 ms]; [destruct p; discriminate|]. cbn [losses].
  assert (H' : forall l i, In (l, i) ls -> 0 <= moment l /\ 0 <= l_damping l) by (intros l1 i1 H1; apply (H l1 i1); right; exact H1). destruct (H l0 i0 (or_introl eq_refl)) as [A B].
  destruct p as [|p].
  - cbn in Hp, Hm. injection Hp as <- <-. injection Hm as <-. pose proof (losses_nonneg ls m0 ms H'). replace (nth 1 (m0 :: ms) Zero) with (hd Zero ms) by (destruct ms; reflexivity). lra.
  - cbn in Hp, Hm. specialize (IH m0 ms H' p l i m Hp Hm). pose proof (loss_rate_nonneg l0 i0 m0 b (hd Zero ms) A B). cbn [nth] in *. destruct p; lra.
Qed.
Lemma rate_floor : forall ls, (forall l (i : field_inputs), In (l, i) ls -> 0 < moment l /\ 0 < l_damping l) ->
  exists k, 0 < k /\ forall l (i : field_inputs), In (l, i) ls -> k <= moment l * (gamma0 * l_damping l / (1 + l_damping l * l_damping l)).
Proof.
  induction ls as [|[l i] ls IH]; intros H; [exists 1; split; [lra|contradiction]|]. destruct (IH (fun l i Hi => H l i (or_intror Hi))) as (k & Hk & G).
  destruct (H l i (or_introl eq_refl)) as [A B]. set (k' := moment l * (gamma0 * l_damping l / (1 + l_damping l * l_damping l))).
  assert (K' : 0 < k') by (apply Rmult_lt_0_compat; [exact A|]; apply Rmult_lt_0_compat; [apply Rmult_lt_0_compat; [apply gamma_pos|exact B]|apply Rinv_0_lt_compat; nra]).
  exists (Rmin k k'). split; [apply Rmin_pos; assumption|]. intros l1 i1 [E|Hi]; [injection E as <- <-; apply Rmin_r|]. pose proof (Rmin_l k k'). specialize (G l1 i1 Hi). lra.
Qed.

(** ** Along solutions *)
Section Settle.
Context (ls : list (layer * field_inputs)) (HC : conservative ls) (HP : forall l i, In (l, i) ls -> 0 <= moment l /\ 0 <= l_damping l).
Section Horizon.
Context (T : R) (u du : nat -> R -> cvec) (HS : solves (layers ls) T u du) (HU : forall p l, nth_error (layers ls) p = Some l -> Unit (u p 0)).
Lemma snap_norm t m : 0 <= t <= T -> In m (snapshot u (length ls) t) -> Norm m <= 2.
Proof.
  intros Ht H. unfold snapshot in H. apply in_map_iff in H. destruct H as (q & <- & Hq). apply in_seq in Hq.
  destruct (nth_error (layers ls) q) as [l|] eqn:Q; [|apply nth_error_None in Q; rewrite layers_len in Q; lia].
  rewrite (Norm_unit _ (solution_unit _ _ _ _ HS HU q l t Q Ht)). lra.
Qed.
Lemma drop a b e : 0 <= a <= b -> b <= T -> (forall t, a <= t <= b -> e <= losses Zero ls (snapshot u (length ls) t)) ->
  e * (b - a) <= stack_energy ls (snapshot u (length ls) a) - stack_energy ls (snapshot u (length ls) b).
Proof.
  intros Hab Hb HE. destruct (Rle_lt_or_eq_dec a b (proj2 Hab)) as [P|<-]; [|lra].
  destruct (MVT_cor2 (fun s => stack_energy ls (snapshot u (length ls) s)) (fun s => - losses Zero ls (snapshot u (length ls) s)) a b P) as (c & E & Ic).
  - intros c Ic. apply (energy_balance ls T u du HC HS). lra.
  - cbv beta in E. specialize (HE c ltac:(lra)). nra.
Qed.
End Horizon.
(** Within a time that does not depend on the start some instant is nearly at rest. *)
Lemma rest_soon eps : 0 < eps -> exists T0, 0 < T0 /\ forall T u du, T0 <= T -> solves (layers ls) T u du -> (forall p l, nth_error (layers ls) p = Some l -> Unit (u p 0)) ->
  forall s, 0 <= s -> s + T0 <= T -> exists t, s <= t <= s + T0 /\ losses Zero ls (snapshot u (length ls) t) < eps.
Proof.
  intros He. destruct (energy_bound ls) as (B & HB & EB). exists ((2 * B + 1) / eps). assert (T0 : 0 < (2 * B + 1) / eps) by (apply Rdiv_lt_0_compat; lra). split; [exact T0|].
  intros T u du HT HS HU s Hs HsT. apply Classical_Pred_Type.not_all_not_ex. intros N.
  pose proof (drop T u du HS s (s + (2 * B + 1) / eps) eps ltac:(lra) HsT) as D. specialize (D (fun t Ht => Rnot_lt_le _ _ (fun X => N t (conj Ht X)))).
  pose proof (EB _ (fun m Hm => snap_norm T u du HS HU s m ltac:(lra) Hm)) as E1. pose proof (EB _ (fun m Hm => snap_norm T u du HS HU (s + (2 * B + 1) / eps) m ltac:(lra) Hm)) as E2.
  apply Rabs_def2 in HB || idtac. replace (eps * (s + (2 * B + 1) / eps - s)) with (2 * B + 1) in D by (field; lra).
  pose proof (Rle_abs (stack_energy ls (snapshot u (length ls) s))). pose proof (Rle_abs (- stack_energy ls (snapshot u (length ls) (s + (2 * B + 1) / eps)))) as X. rewrite Rabs_Ropp in X. lra.
Qed.
(** Motions without an end come to rest. *)
Lemma rest_finally u du : (forall T, solves (layers ls) T u du) -> (forall p l, nth_error (layers ls) p = Some l -> Unit (u p 0)) ->
  forall eps, 0 < eps -> exists t0, 0 <= t0 /\ forall t, t0 <= t -> losses Zero ls (snapshot u (length ls) t) < eps.
Proof.
  intros HS HU eps He. destruct (energy_bound ls) as (B & HB & EB). destruct (losses_lip ls) as (K & HK & LL). destruct (steady_speed ls HC) as (M & HM & SP).
  set (E := fun t => stack_energy ls (snapshot u (length ls) t)). set (D := fun t => losses Zero ls (snapshot u (length ls) t)).
  assert (EBB : forall t, 0 <= t -> - B <= E t <= B) by (intros t Ht; apply Rabs_le_inv; apply EB; intros m Hm; apply (snap_norm t u du (HS t) HU t m); [lra|exact Hm]).
  assert (UN : forall q t, (q < length ls)%nat -> 0 <= t -> Unit (u q t)).
  { intros q t Hq Ht. destruct (nth_error (layers ls) q) as [l|] eqn:Q; [|apply nth_error_None in Q; rewrite layers_len in Q; lia]. exact (solution_unit _ _ _ _ (HS t) HU q l t Q ltac:(lra)). }
  assert (DL : forall a b, 0 <= a <= b -> Rabs (D b - D a) <= K * (M * (b - a))).
  { intros a b Hab. apply LL; [apply Rmult_le_pos; lra|unfold snapshot; rewrite !map_length; reflexivity|apply zero_small|apply zero_small|rewrite Distance_refl; apply Rmult_le_pos; lra|].
    intros q v w Hv Hw. assert (Hq : (q < length ls)%nat) by (assert (X : (q < length (snapshot u (length ls) b))%nat) by (apply nth_error_Some; congruence); unfold snapshot in X; rewrite map_length, seq_length in X; exact X).
    unfold snapshot in Hv, Hw. rewrite nth_error_map_seq in Hv, Hw by exact Hq. injection Hv as <-. injection Hw as <-. rewrite !Norm_unit by (apply UN; [exact Hq|lra]). split; [lra|]. split; [lra|].
    apply (speed (u q) (du q)); [lra|]. intros t Ht. destruct (nth_error ls q) as [[l i]|] eqn:Q; [|apply nth_error_None in Q; lia].
    destruct (HS t q l t (layers_nth _ _ _ _ Q) ltac:(lra)) as [R1 V1]. split; [exact V1|]. rewrite layers_len in R1.
    assert (NN : forall k, Norm (nth k (snapshot u (length ls) t) Zero) <= 2).
    { intros k. destruct (nth_in_or_default k (snapshot u (length ls) t) Zero) as [I|I]; [exact (snap_norm t u du (HS t) HU t _ ltac:(lra) I)|rewrite I; exact zero_small]. }
    apply (SP l i t _ _ _ _ (nth_error_In _ _ Q)) in R1; [exact R1|rewrite Norm_unit by (apply UN; [exact Hq|lra]); lra| |apply NN].
    destruct q; [exact zero_small|apply NN]. }
  set (C := K * M + 1). assert (C1 : 1 <= C) by (unfold C; assert (0 <= K * M) by (apply Rmult_le_pos; lra); lra).
  set (h := eps / (2 * C)). assert (H0 : 0 < h) by (apply Rdiv_lt_0_compat; lra). set (eta := eps / 2 * h). assert (ETA : 0 < eta) by (apply Rmult_lt_0_compat; lra).
  assert (DR : forall a b, 0 <= a <= b -> E b <= E a) by (intros a b Hab; apply (energy_falls ls b u du HC (HS b) a b HP Hab); lra).
  assert (T0 : exists t0, 0 <= t0 /\ forall t, t0 <= t -> E t0 - E t < eta).
  { apply Classical_Pred_Type.not_all_not_ex. intros N. assert (G : forall k : nat, exists t, 0 <= t /\ INR k * eta <= E 0 - E t).
    - induction k as [|k (t & Ht & IH)]; [exists 0; split; [lra|cbn; lra]|]. destruct (Classical_Pred_Type.not_all_ex_not _ (fun s => t <= s -> E t - E s < eta) (fun X => N t (conj Ht X))) as (s & Hs).
      apply Classical_Prop.imply_to_and in Hs. destruct Hs as [S1 S2]. exists s. split; [lra|]. rewrite S_INR. lra.
    - destruct (nat_above ((2 * B + 1) / eta)) as [k Hk]. destruct (G k) as (t & Ht & X). pose proof (EBB 0 ltac:(lra)). pose proof (EBB t Ht).
      assert (Y : (2 * B + 1) / eta * eta < INR k * eta) by (apply Rmult_lt_compat_r; assumption). replace ((2 * B + 1) / eta * eta) with (2 * B + 1) in Y by (field; lra). lra. }
  destruct T0 as (t0 & Ht0 & G). exists t0. split; [exact Ht0|]. intros t Ht. apply Rnot_le_lt. intros Hl. fold (D t) in Hl.
  assert (LOW : forall s, t <= s <= t + h -> eps / 2 <= D s).
  { intros s Hs. pose proof (DL t s ltac:(lra)) as X. assert (Y : K * (M * (s - t)) <= C * h). { replace (K * (M * (s - t))) with (K * M * (s - t)) by ring. apply Rmult_le_compat; [apply Rmult_le_pos; lra|lra|unfold C; lra|lra]. }
    assert (Z : C * h = eps / 2) by (unfold h; field; lra). pose proof (Rle_abs (- (D s - D t))) as W. rewrite Rabs_Ropp in W. lra. }
  pose proof (drop (t + h) u du (HS (t + h)) t (t + h) (eps / 2) ltac:(lra) ltac:(lra) LOW) as X. fold (E t) (E (t + h)) in X. replace (eps / 2 * (t + h - t)) with eta in X by (unfold eta; ring).
  pose proof (G (t + h) ltac:(lra)). pose proof (DR t0 t ltac:(lra)). lra.
Qed.
End Settle.

(** ** Torques *)
Lemma small_torque ls k ms p l i m eps : (forall l i, In (l, i) ls -> 0 < moment l /\ 0 < l_damping l) -> 0 < k ->
  (forall l (i : field_inputs), In (l, i) ls -> k <= moment l * (gamma0 * l_damping l / (1 + l_damping l * l_damping l))) -> 0 < eps ->
  losses Zero ls ms < k * (eps * eps) -> nth_error ls p = Some (l, i) -> nth_error ms p = Some m -> Norm (Cross m (field_on l i m (below ms p) (above ms p))) < eps.
Proof.
  intros HP Hk HK He HL Hp Hm. pose proof (one_loss ls Zero ms (fun l i H => conj (Rlt_le _ _ (proj1 (HP l i H))) (Rlt_le _ _ (proj2 (HP l i H)))) p l i m Hp Hm) as O.
  specialize (HK l i (nth_error_In _ _ Hp)). unfold loss_rate in O. fold (above ms p) in O. change (match p with O => Zero | S k0 => nth k0 ms Zero end) with (below ms p) in O.
  set (X := Cross m (field_on l i m (below ms p) (above ms p))) in *. pose proof (Norm2_nonneg X) as N.
  assert (Q : Norm2 X < eps * eps).
  { apply Rmult_lt_reg_l with k; [exact Hk|]. eapply Rle_lt_trans; [|exact HL]. eapply Rle_trans; [apply Rmult_le_compat_r; [exact N|exact HK]|exact O]. }
  unfold Norm. rewrite <- (sqrt_square eps) by lra. apply sqrt_lt_1; [exact N|nra|exact Q].
Qed.
Lemma settles ls u du : conservative ls -> (forall l i, In (l, i) ls -> 0 < moment l /\ 0 < l_damping l) -> (forall T, solves (layers ls) T u du) ->
  (forall p l, nth_error (layers ls) p = Some l -> Unit (u p 0)) -> forall eps, 0 < eps -> exists t0, 0 <= t0 /\ forall t p l i, t0 <= t -> nth_error ls p = Some (l, i) ->
  Norm (Cross (u p t) (field_on l i (u p t) (below (snapshot u (length ls) t) p) (above (snapshot u (length ls) t) p))) < eps.
Proof.
  intros HC HP HS HU eps He. assert (HP' : forall l i, In (l, i) ls -> 0 <= moment l /\ 0 <= l_damping l) by (intros l i H; destruct (HP l i H); lra).
  destruct (rate_floor ls HP) as (k & Hk & HK). destruct (rest_finally ls HC HP' u du HS HU (k * (eps * eps)) ltac:(apply Rmult_lt_0_compat; nra)) as (t0 & Ht0 & G).
  exists t0. split; [exact Ht0|]. intros t p l i Ht Hp. apply (small_torque ls k); try assumption; [exact (G t Ht)|]. unfold snapshot. rewrite nth_error_map_seq; [reflexivity|]. apply nth_error_Some. congruence.
Qed.
Lemma settles_soon ls eps : conservative ls -> (forall l i, In (l, i) ls -> 0 < moment l /\ 0 < l_damping l) -> 0 < eps ->
  exists T0, 0 < T0 /\ forall T u du, solves (layers ls) T u du -> (forall p l, nth_error (layers ls) p = Some l -> Unit (u p 0)) ->
  forall s, 0 <= s -> s + T0 <= T -> exists t, s <= t <= s + T0 /\ forall p l i, nth_error ls p = Some (l, i) ->
  Norm (Cross (u p t) (field_on l i (u p t) (below (snapshot u (length ls) t) p) (above (snapshot u (length ls) t) p))) < eps.
Proof.
  intros HC HP He. destruct (rate_floor ls HP) as (k & Hk & HK). destruct (rest_soon ls HC (k * (eps * eps)) ltac:(apply Rmult_lt_0_compat; nra)) as (T0 & HT & G).
  exists T0. split; [exact HT|]. intros T u du HS HU s Hs HsT. destruct (G T u du ltac:(lra) HS HU s Hs HsT) as (t & Ht & L). exists t. split; [exact Ht|].
  intros p l i Hp. apply (small_torque ls k); try assumption. unfold snapshot. rewrite nth_error_map_seq; [reflexivity|]. apply nth_error_Some. congruence.
Qed.

(** ** Simulations *)
Lemma losses_limit ls T j u du : 0 <= T -> conservative ls -> j_layers j = layers ls -> (forall l, In l (j_layers j) -> quiet l /\ Unit (l_mag l)) ->
  solves (layers ls) T u du -> starts (layers ls) u ->
  forall eps, 0 < eps -> exists delta, 0 < delta /\ forall dt wf e mode j', 0 < dt < delta -> runSimulation T dt wf e mode j = (j', Ok tt) ->
    Rabs (losses Zero ls (mags (j_layers j')) - losses Zero ls (snapshot u (length ls) T)) < eps.
Proof.
  intros HT HC HJ HQ HS H0 eps He. destruct (losses_lip ls) as (K & HK & LP). pose proof HS as HS'. pose proof H0 as H0'. rewrite <- HJ in HS', H0'.
  assert (FS : fine_start T (j_layers j)).
  { intros l Hl. split; [|apply HQ; exact Hl]. rewrite HJ in Hl. unfold layers in Hl. apply in_map_iff in Hl. destruct Hl as ([l0 i0] & <- & Hi). apply (conservative_tame T l0 i0). apply (proj1 HC). exact Hi. }
  assert (HU : forall p l, nth_error (layers ls) p = Some l -> Unit (u p 0)).
  { intros p l Hp. rewrite (H0 p l Hp). apply HQ. rewrite HJ. exact (nth_error_In _ _ Hp). }
  set (d := Rmin 1 (eps / (K + 1))). assert (Hd : 0 < d) by (apply Rmin_pos; [lra|apply Rdiv_lt_0_compat; lra]).
  destruct (run_limit T j u du HT FS HS' H0' d Hd) as (delta & HD & G). exists delta. split; [exact HD|]. intros dt wf e mode j' Hdt E.
  destruct (G dt wf e mode j' Hdt E) as [G1 _]. pose proof (run_layers _ _ _ _ _ _ _ (fun l Hl => proj1 (HQ l Hl)) E) as LE. rewrite HJ, layers_len in LE.
  pose proof (Rmin_l 1 (eps / (K + 1))) as D1. pose proof (Rmin_r 1 (eps / (K + 1))) as D2. fold d in D1, D2.
  apply Rle_lt_trans with (K * d).
  - apply LP; [lra|unfold mags, snapshot; rewrite !map_length, seq_length; exact LE|exact zero_small|exact zero_small|rewrite Distance_refl; lra|].
    intros p v w Hv Hw. unfold mags in Hv. rewrite nth_error_map in Hv. destruct (nth_error (j_layers j') p) as [l'|] eqn:Q; [|discriminate]. injection Hv as <-.
    assert (HP : (p < length ls)%nat) by (rewrite <- LE; apply nth_error_Some; congruence). unfold snapshot in Hw. rewrite nth_error_map_seq in Hw by exact HP. injection Hw as <-.
    specialize (G1 p l' Q). assert (UN : Norm (u p T) = 1).
    { apply Norm_unit. destruct (nth_error (layers ls) p) as [l|] eqn:Q2; [|apply nth_error_None in Q2; rewrite layers_len in Q2; lia]. exact (solution_unit _ _ _ _ HS HU p l T Q2 ltac:(lra)). }
    split; [|split]; try lra. pose proof (Distance_triangle (l_mag l') (u p T) Zero) as TR. assert (DN : forall a, Distance a Zero = Norm a).
    { intros a. unfold Distance. f_equal. rewrite Minus_def. destruct a as [a1 a2 a3]. unfold Zero. cbn [cx cy cz]. apply vec_eq; ring. } rewrite !DN in TR. lra.
  - assert (X : d * (K + 1) <= eps / (K + 1) * (K + 1)) by (apply Rmult_le_compat_r; lra). replace (eps / (K + 1) * (K + 1)) with eps in X by (field; lra). lra.
Qed.
Lemma global_of ls : conservative ls -> (forall l i, In (l, i) ls -> Unit (l_mag l)) -> exists u du, starts (layers ls) u /\ forall T, solves (layers ls) T u du.
Proof.
  intros HC HU. apply global_motion.
  - intros T l Hl. unfold layers in Hl. apply in_map_iff in Hl. destruct Hl as ([l0 i0] & <- & Hi). apply (conservative_sound T l0 i0). apply (proj1 HC). exact Hi.
  - intros l Hl. unfold layers in Hl. apply in_map_iff in Hl. destruct Hl as ([l0 i0] & <- & Hi). exact (HU l0 i0 Hi).
Qed.
Lemma runs_settle ls j : conservative ls -> (forall l i, In (l, i) ls -> 0 < moment l /\ 0 < l_damping l) -> j_layers j = layers ls -> (forall l, In l (j_layers j) -> quiet l /\ Unit (l_mag l)) ->
  forall eps, 0 < eps -> exists T0, 0 <= T0 /\ forall T, T0 <= T -> exists delta, 0 < delta /\ forall dt wf e mode j', 0 < dt < delta -> runSimulation T dt wf e mode j = (j', Ok tt) ->
    forall p l i m, nth_error ls p = Some (l, i) -> nth_error (mags (j_layers j')) p = Some m -> Norm (Cross m (field_on l i m (below (mags (j_layers j')) p) (above (mags (j_layers j')) p))) < eps.
Proof.
  intros HC HP HJ HQ eps He. assert (HP' : forall l i, In (l, i) ls -> 0 <= moment l /\ 0 <= l_damping l) by (intros l i H; destruct (HP l i H); lra).
  assert (HL : forall p l, nth_error (layers ls) p = Some l -> Unit (l_mag l)) by (intros p l Hp; apply HQ; rewrite HJ; exact (nth_error_In _ _ Hp)).
  destruct (global_of ls HC) as (u & du & St & S). { intros l i Hi. apply HQ. rewrite HJ. unfold layers. apply in_map_iff. exists (l, i). auto. }
  destruct (rate_floor ls HP) as (k & Hk & HK). set (e0 := k * (eps * eps)). assert (E0 : 0 < e0) by (apply Rmult_lt_0_compat; nra).
  destruct (rest_finally ls HC HP' u du S (fun p l Hp => eq_ind_r Unit (HL p l Hp) (St p l Hp)) (e0 / 2) ltac:(lra)) as (T0 & HT0 & G). exists T0. split; [exact HT0|]. intros T HT.
  destruct (losses_limit ls T j u du ltac:(lra) HC HJ HQ (S T) St (e0 / 2) ltac:(lra)) as (delta & HD & X). exists delta. split; [exact HD|]. intros dt wf e mode j' Hdt E p l i m Hp Hm.
  apply (small_torque ls k); try assumption. fold e0. specialize (X dt wf e mode j' Hdt E). specialize (G T HT). apply Rabs_def2 in X. lra.
Qed.

(** ** States without torque *)
Lemma LLG_plain_zero alpha m H : LLG_plain alpha m H = Zero <-> Cross m H = Zero.
Proof.
  unfold LLG_plain, LL. generalize (Cross m H). intros c. split; intros E.
  - assert (D : prefactor alpha * Norm2 c = 0).
    { assert (Z : Dot c (Scal (prefactor alpha) (Plus c (Scal alpha (Cross m c)))) = 0) by (rewrite E; destruct c; vsimp; ring).
      rewrite <- Z. unfold Norm2. destruct c as [c1 c2 c3], m as [m1 m2 m3]. vsimp. cbn [cx cy cz]. ring. }
    apply Norm2_zero. assert (P : prefactor alpha <> 0). { unfold prefactor. pose proof gamma_pos. apply Rlt_not_eq. unfold Rdiv. rewrite Ropp_mult_distr_l_reverse. apply Ropp_lt_gt_0_contravar. apply Rmult_lt_0_compat; [assumption|apply Rinv_0_lt_compat; nra]. }
    apply Rmult_integral in D. destruct D; [contradiction|assumption].
  - rewrite E. destruct m as [m1 m2 m3]. vsimp. apply vec_eq; cbn [cx cy cz]; ring.
Qed.
Lemma rest_derivative l i t m b c : conservative_layer l i -> (rhs l t m b c Zero <-> Cross m (field_on l i m b c) = Zero).
Proof.
  intros (ST & S1 & S2 & A & B & X). clear X. apply conj.
  - intros (i' & I & _ & _ & D). assert (i' = i) by (rewrite (P_Regular.ins_ok _ _ _ I), (P_Regular.ins_ok _ _ _ (ST t)); reflexivity). subst i'.
    fold (field_on l i m b c) in D. apply (proj1 (LLG_plain_zero (l_damping l) m (field_on l i m b c))). inversion D; congruence.
  - intros E. exists i. split; [apply ST|]. split; [exact A|]. split; [exact B|]. apply (LLG_plain_zero (l_damping l)) in E. fold (field_on l i m b c). rewrite <- E. apply llg_plain; assumption.
Qed.
Definition at_rest (ls : list (layer * field_inputs)) (p : nat) (t : R) : cvec := nth p (mags (layers ls)) Zero.
Lemma at_rest_snap ls t : snapshot (at_rest ls) (length (layers ls)) t = mags (layers ls).
Proof.
  unfold snapshot, at_rest. replace (length (layers ls)) with (length (mags (layers ls))) by apply map_length. induction (mags (layers ls)) as [|m ms IH]; [reflexivity|].
  cbn [length seq map nth]. f_equal. rewrite <- seq_shift, map_map. exact IH.
Qed.
Lemma at_rest_nth ls p l t : nth_error (layers ls) p = Some l -> at_rest ls p t = l_mag l.
Proof. intros H. unfold at_rest, mags. apply nth_error_nth. rewrite nth_error_map, H. reflexivity. Qed.
Lemma rest_iff ls T u du : 0 < T -> conservative ls -> (forall l i, In (l, i) ls -> Unit (l_mag l)) -> solves (layers ls) T u du -> starts (layers ls) u ->
  ((forall p l t, nth_error (layers ls) p = Some l -> 0 <= t <= T -> u p t = l_mag l) <->
   forall p l i, nth_error ls p = Some (l, i) -> Cross (l_mag l) (field_on l i (l_mag l) (below (mags (layers ls)) p) (above (mags (layers ls)) p)) = Zero).
Proof.
  intros HT HC HU HS St. split.
  - intros H p l i Hp. pose proof (layers_nth _ _ _ _ Hp) as Hp'. destruct (HS p l (T / 2) Hp' ltac:(lra)) as [R1 V1].
    assert (SN : snapshot u (length (layers ls)) (T / 2) = mags (layers ls)).
    { rewrite <- (at_rest_snap ls (T / 2)). apply snapshot_same. intros q Hq. destruct (nth_error (layers ls) q) as [l'|] eqn:Q; [|apply nth_error_None in Q; lia]. rewrite (at_rest_nth _ _ _ _ Q). apply (H q l'); [exact Q|lra]. }
    rewrite SN, (H p l (T / 2) Hp' ltac:(lra)) in R1. replace (du p (T / 2)) with Zero in R1; [exact (proj1 (rest_derivative l i _ _ _ _ (proj1 HC l i (nth_error_In _ _ Hp))) R1)|].
    assert (Z : vderiv (u p) (T / 2) Zero).
    { apply vderiv_near with (fun _ => l_mag l); [|repeat split; apply derivable_pt_lim_const]. exists (T / 2). split; [lra|]. intros s Hs. apply Rabs_def2 in Hs. apply (H p l s Hp'). lra. }
    destruct V1 as (A1 & A2 & A3), Z as (B1 & B2 & B3). destruct (du p (T / 2)) as [d1 d2 d3]. cbn [cx cy cz] in *. apply vec_eq; [exact (uniqueness_limite _ _ _ _ B1 A1)|exact (uniqueness_limite _ _ _ _ B2 A2)|exact (uniqueness_limite _ _ _ _ B3 A3)].
  - intros H p l t Hp Ht. rewrite <- (at_rest_nth ls p l t Hp). symmetry. 
    apply (motion_unique (layers ls) T (Rlt_le _ _ HT)) with (u := u) (du := du) (dv := fun _ _ => Zero) (l := l); try assumption.
    + intros l0 Hl. unfold layers in Hl. apply in_map_iff in Hl. destruct Hl as ([l1 i1] & <- & Hi). exact (conservative_sound T l1 i1 (proj1 HC l1 i1 Hi)).
    + intros q l0 s Hq Hs. rewrite at_rest_snap, (at_rest_nth ls q l0 s Hq). split; [|unfold at_rest; repeat split; apply derivable_pt_lim_const].
      unfold layers in Hq. rewrite nth_error_map in Hq. destruct (nth_error ls q) as [[l1 i1]|] eqn:Q; [|discriminate]. injection Hq as <-. apply (rest_derivative l1 i1); [exact (proj1 HC l1 i1 (nth_error_In _ _ Q))|]. exact (H q l1 i1 Q).
    + intros q l0 Hq. rewrite (St q l0 Hq), (at_rest_nth ls q l0 0 Hq). split; [|reflexivity]. unfold layers in Hq. rewrite nth_error_map in Hq. destruct (nth_error ls q) as [[l1 i1]|] eqn:Q; [|discriminate]. injection Hq as <-. exact (HU l1 i1 (nth_error_In _ _ Q)).
Qed.

(** ** Examples *)
Definition ex_damped_pair : list (layer * field_inputs) := [(set_l_damping 1 (ex_lower 1), ex_inputs (CV ex_h 0 0)); (set_l_damping 1 (ex_upper 1 1), ex_inputs Zero)].
Definition ex_damped_junction : junction := ex_plain_pair (set_l_damping 1 (ex_lower 1)) (set_l_damping 1 (ex_upper 1 1)).
Lemma damped_conservative : conservative ex_damped_pair.
Proof.
  assert (HT : symmetric null_tensor) by (intros x y; destruct x, y; cbn; ring). split.
  - intros l i [E|[E|[]]]; injection E as <- <-; (split; [intros t; repeat split|]; split; [reflexivity|]; split; [reflexivity|]; split; [cbn; lra|]; split; [cbn; lra|]; split; [reflexivity|]; split; [reflexivity|exact HT]).
  - intros p a b A B. destruct p as [|[|p]]; cbn in A, B; [|discriminate|destruct p; discriminate]. injection A as <-. injection B as <-. split; [reflexivity|]. split; [reflexivity|].
    exact (proj1 (reciprocal_agrees (ex_lower 1) (ex_upper 1 1) (dipole_reciprocal 1 1) eq_refl)).
Qed.
Lemma damped_positive l i : In (l, i) ex_damped_pair -> 0 < moment l /\ 0 < l_damping l.
Proof. intros [E|[E|[]]]; injection E as <- <-; unfold moment; cbn; lra. Qed.
Lemma damped_quiet l : In l (layers ex_damped_pair) -> quiet l /\ Unit (l_mag l).
Proof. intros [<-|[<-|[]]]; (split; [split; reflexivity|unfold Unit, Norm2, Dot; cbn; ring]). Qed.
Lemma damped_runs T n e mode : 0 < T -> (0 < n < 4294967296)%Z -> exists j', runSimulation T (T / IZR n) (T / IZR n) e mode ex_damped_junction = (j', Ok tt).
Proof.
  intros HP Hn. assert (P : 1 <= IZR n < 4294967296) by (split; [apply IZR_le; lia|apply IZR_lt; lia]).
  assert (D : 0 < T / IZR n) by (apply Rdiv_lt_0_compat; lra).
  assert (EN : INR (Z.to_nat n) = IZR n) by (rewrite INR_IZR_INZ, Z2Nat.id by lia; reflexivity).
  apply (P_RunEx.run_exists _ _ _ _ _ _ (Z.to_nat n) 1); [lra|discriminate|discriminate| |lia|].
  - assert (A : T / (T / IZR n) = IZR n) by (field; lra). assert (B : T / IZR n / (T / IZR n) = 1) by (field; lra).
    repeat split; try lra; rewrite ?A, ?B; try lra; left; rewrite ?EN; cbn [INR]; lra.
  - intros l [<-|[<-|[]]]; (split; [|split; [reflexivity|discriminate]]); intros t v b top; eexists.
    + exists (ex_inputs (CV ex_h 0 0)). split; [repeat split|]. split; [cbn; lra|]. split; [cbn; lra|]. apply llg_plain; reflexivity.
    + exists (ex_inputs Zero). split; [repeat split|]. split; [cbn; lra|]. split; [cbn; lra|]. apply llg_plain; reflexivity.
Qed.
(** A layer along its field. *)
Definition ex_resting : list (layer * field_inputs) := [(set_l_mag (CV 0 0 1) ex_fall, ex_inputs (CV 0 0 (/ gamma0)))].
Lemma resting_conservative : conservative ex_resting.
Proof.
  split; [|intros p a b A B; destruct p as [|[|p]]; discriminate]. intros l i [E|[]]. injection E as <- <-.
  split; [intros t; repeat split|]. split; [reflexivity|]. split; [reflexivity|]. split; [cbn; lra|]. split; [cbn; lra|]. split; [reflexivity|]. split; [reflexivity|]. intros x y; destruct x, y; cbn; ring.
Qed.
Lemma resting_torque p l i : nth_error ex_resting p = Some (l, i) -> Cross (l_mag l) (field_on l i (l_mag l) (below (mags (layers ex_resting)) p) (above (mags (layers ex_resting)) p)) = Zero.
Proof.
  intros Hp. destruct p as [|p]; cbn in Hp; [injection Hp as <- <-|destruct p; discriminate]. unfold field_on, H_eff, IEC_total, IDMI_total, H_anis, dipole_total, H_iec, H_idmi, H_tensor, ex_inputs, ex_fall.
  cbn -[Rmult Rplus Rdiv Rinv gamma0 mu0 Ropp]. unfold Zero, Rdiv. apply vec_eq; ring.
Qed.
