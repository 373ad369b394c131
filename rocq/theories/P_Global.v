(** Motions without an end. *)
From Verif Require Import P_RunProps P_LayerProps P_Step4 P_Converge P_ConvergeRun P_Metric P_Vec P_Regular P_StackEnergy P_StackEnergyRun P_Exists.
From Verif Require Export S_Exists.
From Coq Require Import Reals Lra Lia Psatz.
Open Scope R_scope.

Lemma deriv_near (f g : R -> R) t d : (exists e, 0 < e /\ forall s, Rabs (s - t) < e -> f s = g s) -> derivable_pt_lim g t d -> derivable_pt_lim f t d.
Proof.
  intros (e & He & E) D eps Heps. destruct (D eps Heps) as [del H]. assert (P : 0 < Rmin del e) by (apply Rmin_pos; [apply cond_pos|exact He]).
  exists (mkposreal _ P). cbn. intros h Hh HB. pose proof (Rmin_l del e). pose proof (Rmin_r del e).
  rewrite (E (t + h)), (E t); [apply H; [exact Hh|lra]|rewrite Rminus_diag_eq, Rabs_R0 by reflexivity; exact He|replace (t + h - t) with h by ring; lra].
Qed.
Lemma vderiv_near f g t d : (exists e, 0 < e /\ forall s, Rabs (s - t) < e -> f s = g s) -> vderiv g t d -> vderiv f t d.
Proof.
  intros (e & He & E) (A & B & C). split; [|split]; [apply (deriv_near _ (fun s => cx (g s)))|apply (deriv_near _ (fun s => cy (g s)))|apply (deriv_near _ (fun s => cz (g s)))]; try assumption; exists e; (split; [exact He|]); intros s Hs; cbv beta; rewrite (E s Hs); reflexivity.
Qed.
Lemma solves_shorter ls T T' u du : T <= T' -> solves ls T' u du -> solves ls T u du.
Proof. intros H S p l t Hp Ht. apply (S p l t Hp). lra. Qed.
Lemma snapshot_same u v n t : (forall p, (p < n)%nat -> u p t = v p t) -> snapshot u n t = snapshot v n t.
Proof. intros H. unfold snapshot. apply map_ext_in. intros p Hp. apply in_seq in Hp. apply H. lia. Qed.

Section Global.
Context (ls : list layer) (HS : forall T l, In l ls -> sound_layer T l) (HU : forall l, In l ls -> Unit (l_mag l)).
Let n := length ls.
Definition value_at (p c : nat) (t x : R) : Prop := (p < length ls)%nat /\ exists u du, solves ls (Rabs t + 1) u du /\ starts ls u /\ x = co c (u p t).
Lemma there T : 0 <= T -> exists u du, solves ls T u du /\ starts ls u.
Proof. intros HT. apply motion_exists; [exact HT|intros l Hl; apply HS; exact Hl|exact HU]. Qed.
Lemma same T T' u du v dv : solves ls T u du -> starts ls u -> solves ls T' v dv -> starts ls v ->
  forall p t, (p < n)%nat -> 0 <= t <= T -> t <= T' -> v p t = u p t.
Proof.
  intros SU U0 SV V0 p t Hp Ht Ht'. destruct (nth_error ls p) as [l|] eqn:Q; [|apply nth_error_None in Q; unfold n in Hp; lia].
  apply (motion_unique ls t (proj1 Ht) (fun l Hl => HS t l Hl) u du v dv) with (l := l); try assumption; try lra.
  - exact (solves_shorter ls t T u du (proj2 Ht) SU).
  - exact (solves_shorter ls t T' v dv Ht' SV).
  - intros q lq Hq. rewrite (U0 q lq Hq), (V0 q lq Hq). split; [apply HU; exact (nth_error_In _ _ Hq)|reflexivity].
Qed.
Lemma value_one p c t x y : 0 <= t -> value_at p c t x -> value_at p c t y -> x = y.
Proof.
  intros Ht (Hp & u & du & SU & U0 & ->) (_ & v & dv & SV & V0 & ->). rewrite Rabs_pos_eq in * by exact Ht.
  rewrite (same (t + 1) (t + 1) u du v dv SU U0 SV V0 p t Hp ltac:(lra) ltac:(lra)). reflexivity.
Qed.
(** The value every solution has at a time, as a least upper bound. *)
Definition set_at (p c : nat) (t x : R) : Prop := (0 <= t /\ value_at p c t x) \/ (~ (0 <= t /\ (p < length ls)%nat) /\ x = 0).
Lemma set_bound p c t : bound (set_at p c t).
Proof.
  destruct (Rle_dec 0 t) as [H|H]; [destruct (lt_dec p (length ls)) as [H2|H2]|].
  - destruct (there (Rabs t + 1)) as (u & du & S & St); [pose proof (Rabs_pos t); lra|]. exists (co c (u p t)). intros x [[_ X]|[X _]]; [|tauto].
    right. apply (value_one p c t); [exact H|exact X|]. split; [exact H2|]. exists u, du. auto.
  - exists 0. intros x [[_ [X _]]|[_ ->]]; [contradiction|lra].
  - exists 0. intros x [[X _]|[_ ->]]; [contradiction|lra].
Qed.
Lemma set_some p c t : exists x, set_at p c t x.
Proof.
  destruct (Rle_dec 0 t) as [H|H]; [destruct (lt_dec p (length ls)) as [H2|H2]|].
  - destruct (there (Rabs t + 1)) as (u & du & S & St); [pose proof (Rabs_pos t); lra|]. exists (co c (u p t)). left. split; [exact H|]. split; [exact H2|]. exists u, du. auto.
  - exists 0. right. tauto.
  - exists 0. right. tauto.
Qed.
Definition coordinate (p c : nat) (t : R) : R := proj1_sig (completeness _ (set_bound p c t) (set_some p c t)).
Lemma coordinate_ok T u du p c t : solves ls T u du -> starts ls u -> (p < n)%nat -> 0 <= t <= T -> coordinate p c t = co c (u p t).
Proof.
  intros S St Hp Ht. unfold coordinate. destruct (completeness _ _ _) as [x [UB LUB]]. cbn.
  destruct (there (t + 1) ltac:(lra)) as (v & dv & SV & V0).
  assert (V : value_at p c t (co c (v p t))) by (split; [exact Hp|]; exists v, dv; rewrite (Rabs_pos_eq t) by lra; auto).
  rewrite <- (same T (t + 1) u du v dv S St SV V0 p t Hp ltac:(lra) ltac:(lra)).
  apply Rle_antisym.
  - apply LUB. intros y [[_ Y]|[Y _]]; [right; apply (value_one p c t); [lra|exact Y|exact V]|exfalso; apply Y; split; [lra|exact Hp]].
  - apply UB. left. split; [lra|exact V].
Qed.
Lemma global_motion : exists u du, starts ls u /\ forall T, solves ls T u du.
Proof.
  destruct (there 1 ltac:(lra)) as (v & dv & SV & V0).
  set (u := fun p t => if Rle_dec t (/ 2) then v p t else CV (coordinate p 0 t) (coordinate p 1 t) (coordinate p 2 t)).
  assert (UE : forall T w dw p t, solves ls T w dw -> starts ls w -> (p < n)%nat -> 0 <= t <= T -> u p t = w p t).
  { intros T w dw p t S St Hp Ht. unfold u. destruct (Rle_dec t (/ 2)) as [H|H]; [apply (same T 1 w dw v dv S St SV V0 p t Hp); lra|].
    rewrite !(coordinate_ok T w dw p _ t S St Hp Ht). cbn. destruct (w p t); reflexivity. }
  set (du := fun p t => match nth_error ls p with Some l => derivative l (PT t (u p t) (below (snapshot u n t) p) (above (snapshot u n t) p)) | None => Zero end).
  exists u, du. split.
  - intros p l Hp. rewrite (UE 1 v dv p 0 SV V0) by (try lra; apply nth_error_Some; congruence). apply V0. exact Hp.
  - intros T p l t Hp [Ht _]. assert (HPn : (p < n)%nat) by (apply nth_error_Some; congruence).
    destruct (there (t + 1) ltac:(lra)) as (w & dw & SW & W0).
    destruct (SW p l t Hp ltac:(lra)) as [R1 D1]. fold n in R1.
    assert (SE : snapshot u n t = snapshot w n t) by (apply snapshot_same; intros q Hq; apply (UE (t + 1) w dw q t SW W0 Hq); lra).
    assert (DE : du p t = dw p t).
    { unfold du. rewrite Hp, SE, (UE (t + 1) w dw p t SW W0 HPn ltac:(lra)). symmetry. exact (derivative_ok _ _ _ _ _ _ R1). }
    rewrite DE. split; [fold n; rewrite SE, (UE (t + 1) w dw p t SW W0 HPn ltac:(lra)); exact R1|].
    destruct (Rle_dec t (/ 4)) as [H|H].
    + destruct (SV p l t Hp ltac:(lra)) as [R2 D2]. fold n in R2. assert (E2 : dv p t = dw p t).
      { rewrite (derivative_ok _ _ _ _ _ _ R1), (derivative_ok _ _ _ _ _ _ R2). assert (SE2 : snapshot v n t = snapshot w n t) by (apply snapshot_same; intros q Hq; apply (same (t + 1) 1 w dw v dv SW W0 SV V0 q t Hq); lra).
        rewrite SE2, (same (t + 1) 1 w dw v dv SW W0 SV V0 p t HPn) by lra. reflexivity. }
      rewrite <- E2. apply (vderiv_near _ (v p)); [|exact D2]. exists (/ 4). split; [lra|]. intros s Hs. apply Rabs_def2 in Hs. unfold u. destruct (Rle_dec s (/ 2)); [reflexivity|lra].
    + apply (vderiv_near _ (w p)); [|exact D1]. exists (/ 4). split; [lra|]. intros s Hs. apply Rabs_def2 in Hs. apply (UE (t + 1) w dw p s SW W0 HPn). lra.
Qed.
End Global.
