(** C51: domain walls. *)
From Verif Require Import P_DW P_Resist.
From Coq Require Import Psatz.
From Coq Require String.
Import String.StringSyntax.
Open Scope R_scope.
Open Scope st_scope.

(** ** A wall for the examples *)
Definition ex_args (r : relaxation) : wall_args :=
  WallArgs (VO 30 40 5) (/ 10) 6 (/ 2) 1 3 8 2 2 0 1 1 2 3 2 5 7 1 4 "perpendicular"%string r.
Definition ex_wall (r : relaxation) : wall :=
  Wall (ex_args r) (dw_bohr * 1 / (dw_echarge * 6)) (dw_hbar * 1 / (2 * 6 * dw_mu0 * dw_echarge * / 2)) (get_cartesian (VO 30 40 5)) (sqrt (2 / 8)) (Some (2 * 8 / (dw_mu0 * 6))) (fun _ => 0).
Lemma ex_usable r d : d <> 0 -> usable (ex_wall r) d.
Proof. intros N. unfold usable, ex_wall, ex_args. cbn. repeat split; try lra; try assumption. discriminate. Qed.
Lemma ex_pair_moves r q J t X1 p1 d1 X2 p2 d2 : d1 <> 0 -> d2 <> 0 -> exists out, multilayer_dw_llg (Walls [ex_wall r; ex_wall q] J) t [X1; p1; d1; X2; p2; d2] = Ok out.
Proof. intros N1 N2. apply moves_exist; [cbn; lia|]. intros [|[|[|?]]] w H; cbn in H; try discriminate; injection H as <-; cbn [nth Nat.mul Nat.add]; apply ex_usable; assumption. Qed.

(** ** Construction *)
(** A wall can be made exactly when its moment, thickness and anisotropy are nonzero and A/Ku is not negative; other
    names of the moving field leave the anisotropy field unset. *)
Theorem c51_constructed : forall a w, newWall a = Ok w <->
  wa_Ms a <> 0 /\ wa_thickness a <> 0 /\ wa_Ku a <> 0 /\ 0 <= wa_A a / wa_Ku a /\
  w = Wall a (dw_bohr * wa_p a / (dw_echarge * wa_Ms a)) (dw_hbar * wa_SHE a / (2 * wa_Ms a * dw_mu0 * dw_echarge * wa_thickness a)) (get_cartesian (wa_H a)) (sqrt (wa_A a / wa_Ku a)) (anisotropy_field a) (fun _ => 0).
Proof. exact newWall_iff. Qed.
Example c51_constructed_ex : newWall (ex_args STATIC) = Ok (ex_wall STATIC).
Proof. apply c51_constructed. cbn. repeat split; try lra. Qed.
Theorem c51_unrelaxed_width : forall a e d, get_unrelaxed_domain_width a e = Ok d <->
  let K := if e then wa_Ku a - dw_mu0 * (wa_Ms a * wa_Ms a) / 2 else wa_Ku a in K <> 0 /\ 0 <= wa_A a / K /\ d = sqrt (wa_A a / K).
Proof. exact width0_iff. Qed.
Example c51_unrelaxed_width_ex : get_unrelaxed_domain_width (ex_args STATIC) false = Ok (sqrt (2 / 8)).
Proof. apply c51_unrelaxed_width. cbn. repeat split; lra. Qed.
Theorem c51_at_most_two : forall ls J ws, newWalls ls J = Ok ws <-> (length ls <= 2)%nat /\ ws = Walls ls J.
Proof. exact newWalls_iff. Qed.
Example c51_at_most_two_ex : newWalls [ex_wall STATIC; ex_wall DYNAMIC] 7 = Ok (Walls [ex_wall STATIC; ex_wall DYNAMIC] 7).
Proof. apply c51_at_most_two. cbn. split; [lia|reflexivity]. Qed.
Theorem c51_current_only : forall je w, let w' := set_current_function je w in
  w_je w' = je /\ w_args w' = w_args w /\ w_bj w' = w_bj w /\ w_Hshe w' = w_Hshe w /\ w_h w' = w_h w /\ w_dw0 w' = w_dw0 w /\ w_Hk w' = w_Hk w.
Proof. intros. cbn. tauto. Qed.

(** ** Motion *)
(** The rates handed to the integrator are exactly the solution of the coupled damped equations with the forces of the
    wall energy; the width changes only with dynamic relaxation.  They exist exactly when every wall is usable. *)
Theorem c51_moves : forall ws t vec out, multilayer_dw_llg ws t vec = Ok out <-> walls_move ws t vec out.
Proof. exact move_iff. Qed.
Example c51_moves_ex : exists out, walls_move (Walls [ex_wall STATIC; ex_wall DYNAMIC] 7) 1 [1; 2; 3; 4; 5; 6] out.
Proof. destruct (ex_pair_moves STATIC DYNAMIC 7 1 1 2 3 4 5 6) as [out H]; try lra. exists out. apply c51_moves, H. Qed.
(** Without current and without the Rashba term the energy falls at the rate of the damping. *)
Theorem c51_one_dissipates : forall ws w t vec out hk, ws_layers ws = [w] -> w_Hk w = Some hk -> w_je w t = 0 -> wa_beta (w_args w) * wa_Hr (w_args w) = 0 -> multilayer_dw_llg ws t vec = Ok out ->
  let v k := nth k vec 0 in let r k := nth k out 0 in
  derivable_pt_lim (fun s => weight w * wall_energy w hk (v 2%nat) (v 0%nat + s * r 0%nat) (v 1%nat + s * r 1%nat)) 0 (- loss w (v 2%nat) (r 0%nat) (r 1%nat)).
Proof. exact one_dissipates. Qed.
Example c51_one_dissipates_ex : exists out, ws_layers (Walls [ex_wall STATIC] 7) = [ex_wall STATIC] /\ w_Hk (ex_wall STATIC) = Some (2 * 8 / (dw_mu0 * 6)) /\ w_je (ex_wall STATIC) 1 = 0 /\ wa_beta (ex_args STATIC) * wa_Hr (ex_args STATIC) = 0 /\
  multilayer_dw_llg (Walls [ex_wall STATIC] 7) 1 [1; 2; 3] = Ok out.
Proof.
  destruct (moves_exist (Walls [ex_wall STATIC] 7) 1 [1; 2; 3]) as [out H]; [cbn; lia| |exists out; repeat split; [cbn; lra|exact H]].
  intros [|[|?]] w H; cbn in H; try discriminate. injection H as <-. cbn [nth Nat.mul Nat.add]. apply ex_usable. lra.
Qed.
Theorem c51_pair_dissipates : forall ws w1 w2 t vec out k1 k2, ws_layers ws = [w1; w2] -> length vec = 6%nat -> w_Hk w1 = Some k1 -> w_Hk w2 = Some k2 -> w_je w1 t = 0 -> w_je w2 t = 0 ->
  wa_beta (w_args w1) * wa_Hr (w_args w1) = 0 -> wa_beta (w_args w2) * wa_Hr (w_args w2) = 0 -> multilayer_dw_llg ws t vec = Ok out ->
  let v k := nth k vec 0 in let r k := nth k out 0 in
  derivable_pt_lim (fun s => pair_energy (ws_J ws) w1 w2 k1 k2 (v 2%nat) (v 5%nat) (v 0%nat + s * r 0%nat) (v 1%nat + s * r 1%nat) (v 3%nat + s * r 3%nat) (v 4%nat + s * r 4%nat)) 0
    (- (loss w1 (v 2%nat) (r 0%nat) (r 1%nat) + loss w2 (v 5%nat) (r 3%nat) (r 4%nat))).
Proof. exact pair_dissipates. Qed.
Example c51_pair_dissipates_ex : exists out, multilayer_dw_llg (Walls [ex_wall STATIC; ex_wall STATIC] 7) 1 [1; 2; 3; 4; 5; 6] = Ok out /\ wa_beta (ex_args STATIC) * wa_Hr (ex_args STATIC) = 0.
Proof. destruct (ex_pair_moves STATIC STATIC 7 1 1 2 3 4 5 6) as [out H]; try lra. exists out. split; [exact H|cbn; lra]. Qed.
(** The coupling acts on the two walls with opposite torques. *)
Theorem c51_coupling_opposite : forall l1 l2 J t vec out out0, length vec = 6%nat -> multilayer_dw_llg (Walls [l1; l2] J) t vec = Ok out -> multilayer_dw_llg (Walls [l1; l2] 0) t vec = Ok out0 ->
  let d w k := weight w * (1 + wa_alpha (w_args w) * wa_alpha (w_args w)) * ((nth (3 * k) out 0 - nth (3 * k) out0 0) / nth (3 * k + 2) vec 0) in
  let f w k := nth (3 * k + 1) out 0 - nth (3 * k + 1) out0 0 = - wa_alpha (w_args w) * ((nth (3 * k) out 0 - nth (3 * k) out0 0) / nth (3 * k + 2) vec 0) in
  d l1 0%nat = 2 * gyro * J * sin (nth 1 vec 0 - nth 4 vec 0) /\ d l2 1%nat = - d l1 0%nat /\ f l1 0%nat /\ f l2 1%nat.
Proof. exact coupling_acts. Qed.
Example c51_coupling_opposite_ex : exists out out0, multilayer_dw_llg (Walls [ex_wall STATIC; ex_wall DYNAMIC] 7) 1 [1; 2; 3; 4; 5; 6] = Ok out /\ multilayer_dw_llg (Walls [ex_wall STATIC; ex_wall DYNAMIC] 0) 1 [1; 2; 3; 4; 5; 6] = Ok out0.
Proof. destruct (ex_pair_moves STATIC DYNAMIC 7 1 1 2 3 4 5 6) as [out H]; try lra. destruct (ex_pair_moves STATIC DYNAMIC 0 1 1 2 3 4 5 6) as [out0 H0]; try lra. exists out, out0. tauto. Qed.
(** Two walls at the same angle, or at opposite angles, feel no coupling. *)
Theorem c51_no_coupling_aligned : forall l1 l2 J t X1 d1 p X2 d2 out, multilayer_dw_llg (Walls [l1; l2] J) t [X1; p; d1; X2; p; d2] = Ok out <-> multilayer_dw_llg (Walls [l1; l2] 0) t [X1; p; d1; X2; p; d2] = Ok out.
Proof.
  intros. rewrite !llg_iff. cbn [ws_layers ws_J].
  assert (E : forall i w hk, (i < 2)%nat -> rates 2 J t [X1; p; d1; X2; p; d2] i w hk = rates 2 0 t [X1; p; d1; X2; p; d2] i w hk).
  { intros i w hk Hi. assert (Z : p - p = 0) by ring. destruct i as [|[|?]]; [| |lia]; unfold rates, neighbour; cbn [Nat.eqb length Nat.sub Nat.mul Nat.add nth]; unfold iec; rewrite Z, sin_0, !Rmult_0_r; reflexivity. }
  split; intros [L H]; (split; [exact L|]); intros i w Hw; destruct (H i w Hw) as (A & B & hk & C & D); (split; [exact A|]); (split; [exact B|]); exists hk; (split; [exact C|]); (assert (Hi : (i < 2)%nat) by (apply (proj1 (nth_error_Some [l1; l2] i)); rewrite Hw; discriminate)); cbn [length] in *; [rewrite <- (E i w hk Hi)|rewrite (E i w hk Hi)]; exact D.
Qed.
Example c51_no_coupling_aligned_ex : exists out, multilayer_dw_llg (Walls [ex_wall STATIC; ex_wall DYNAMIC] 7) 1 [1; 2; 3; 4; 2; 6] = Ok out.
Proof. apply ex_pair_moves; lra. Qed.
(** Without damping nothing can be computed, even if the width is fixed. *)
Theorem c51_undamped_fails : forall ws t vec out i w, nth_error (ws_layers ws) i = Some w -> wa_alpha (w_args w) = 0 -> multilayer_dw_llg ws t vec <> Ok out.
Proof. intros ws t vec out i w Hw Z H. apply llg_iff in H. destruct H as [_ H]. destruct (H i w Hw) as (_ & U & _). unfold usable in U. cbv zeta in U. tauto. Qed.

(** ** Widths *)
Theorem c51_static_width : forall a phi, 0 < wa_A a -> 0 < wa_Ku a -> 0 <= wa_Kp a ->
  sqrt (wa_A a / wa_Ku a) / sqrt (1 + wa_Kp a / wa_Ku a * (sin phi * sin phi)) = relaxed_width a phi /\ 0 < relaxed_width a phi <= sqrt (wa_A a / wa_Ku a).
Proof. exact static_width. Qed.
Example c51_static_width_ex : 0 < wa_A (ex_args STATIC) /\ 0 < wa_Ku (ex_args STATIC) /\ 0 <= wa_Kp (ex_args STATIC).
Proof. cbn. lra. Qed.
(** The dynamic width grows below, shrinks above and rests at the width of least energy. *)
Theorem c51_width_settles : forall ws t vec out i w, multilayer_dw_llg ws t vec = Ok out -> nth_error (ws_layers ws) i = Some w -> wa_relax (w_args w) = DYNAMIC ->
  0 < wa_A (w_args w) -> 0 < wa_Ku (w_args w) -> 0 <= wa_Kp (w_args w) -> 0 < wa_alpha (w_args w) -> 0 < wa_Ms (w_args w) -> 0 < wa_thickness (w_args w) -> 0 < nth (3 * i + 2) vec 0 ->
  let d := nth (3 * i + 2) vec 0 in let r := relaxed_width (w_args w) (nth (3 * i + 1) vec 0) in let v := nth (3 * i + 2) out 0 in
  (0 < v <-> d < r) /\ (v = 0 <-> d = r) /\ (v < 0 <-> r < d).
Proof. exact width_settles. Qed.
Example c51_width_settles_ex : exists out, multilayer_dw_llg (Walls [ex_wall STATIC; ex_wall DYNAMIC] 7) 1 [1; 2; 3; 4; 2; 6] = Ok out /\ wa_relax (ex_args DYNAMIC) = DYNAMIC /\
  0 < wa_A (ex_args DYNAMIC) /\ 0 < wa_Ku (ex_args DYNAMIC) /\ 0 <= wa_Kp (ex_args DYNAMIC) /\ 0 < wa_alpha (ex_args DYNAMIC) /\ 0 < wa_Ms (ex_args DYNAMIC) /\ 0 < wa_thickness (ex_args DYNAMIC).
Proof. destruct (ex_pair_moves STATIC DYNAMIC 7 1 1 2 3 4 2 6) as [out H]; try lra. exists out. cbn -[multilayer_dw_llg]. repeat split; try lra. exact H. Qed.

(** ** Fields *)
(** The pinning field is the period times the slope of the pinning potential. *)
Theorem c51_pinning_field : forall X Ms pinning Ly Lz V0 r, get_pinning_field X Ms pinning Ly Lz V0 = Ok r <->
  pinning <> 0 /\ Ms <> 0 /\ Ly <> 0 /\ Lz <> 0 /\ exists s, derivable_pt_lim (fun x => V0 * (sin (PI * x / pinning) * sin (PI * x / pinning))) X s /\ r = - pinning * s / (2 * dw_mu0 * Ms * Ly * Lz).
Proof. exact pinning_slope. Qed.
Example c51_pinning_field_ex : exists r, get_pinning_field 1 2 3 4 5 6 = Ok r.
Proof. eexists. apply pinning_iff. repeat split; lra. Qed.
Theorem c51_field_contribution : forall w X phi dw r, let a := w_args w in let h := w_h w in
  get_field_contribution X phi (cx h) (cy h) (cz h) (wa_alpha a) dw (wa_Ms a) (wa_V0_pin a) (wa_pinning a) (wa_Ly a) (wa_Lz a) = Ok r <->
  wa_pinning a <> 0 /\ wa_Ms a <> 0 /\ wa_Ly a <> 0 /\ wa_Lz a <> 0 /\
  let f := cz h - 1 / (2 * dw_mu0 * wa_Ms a * wa_Ly a * wa_Lz a) * (2 * PI * wa_V0_pin a * sin (X * PI / wa_pinning a) * cos (X * PI / wa_pinning a)) in let g := PI / 2 * (cx h * sin phi - cy h * cos phi) in
  r = (gyro * dw * (wa_alpha a * f + g), gyro * (f - wa_alpha a * g)).
Proof. exact contribution_iff. Qed.
Example c51_field_contribution_ex : let a := ex_args STATIC in wa_pinning a <> 0 /\ wa_Ms a <> 0 /\ wa_Ly a <> 0 /\ wa_Lz a <> 0.
Proof. cbn. lra. Qed.

(** ** Runs *)
(** One row per accepted step of the integrator; each holds the entries of every wall. *)
Theorem c51_run : forall ws y0 trace rows, run_walls ws y0 trace = Ok rows <->
  exists done, accepted trace done /\ length rows = length done /\
  forall k, (k < length done)%nat -> fst (nth k rows (0, [])) = fst (nth k done (0, [])) /\ length (snd (nth k rows (0, []))) = length (ws_layers ws) /\
    forall i w, nth_error (ws_layers ws) i = Some w -> exists r, nth_error (snd (nth k rows (0, []))) i = Some r /\ reported y0 done k i w r.
Proof. exact run_iff. Qed.
Example c51_run_ex : exists rows, run_walls (Walls [ex_wall DYNAMIC; ex_wall NO_RELAX] 7) [1; 2; 3; 4; 5; 6] [RK Running 1 [2; 2; 3; 4; 5; 6]; RK Finished 3 [3; 2; 3; 4; 5; 6]] = Ok rows /\ length rows = 2%nat.
Proof.
  unfold run_walls. cbn -[Rabs sin]. unfold fdiv. repeat match goal with |- context [Req_EM_T ?x ?y] => destruct (Req_EM_T x y) as [E|_]; [exfalso; revert E; apply Rabs_no_R0; lra|] end. cbn -[Rabs sin]. eexists. split; reflexivity.
Qed.
(** The velocity of a lone wall is its displacement over the step; that of a second wall is not: a second wall at rest
    is reported with the difference to the width of the first. *)
Theorem c51_first_velocity : forall ws y0 trace rows w k, run_walls ws y0 trace = Ok rows -> nth_error (ws_layers ws) 0 = Some w -> (S k < length rows)%nat ->
  exists r s, nth_error (snd (nth k rows (0, []))) 0 = Some r /\ nth_error (snd (nth (S k) rows (0, []))) 0 = Some s /\ r_v s = (r_x s - r_x r) / Rabs (fst (nth (S k) rows (0, [])) - fst (nth k rows (0, []))).
Proof.
  intros ws y0 trace rows w k H Hw Hk. apply c51_run in H. destruct H as (done & _ & L & H). assert (K1 : (k < length done)%nat) by lia. assert (K2 : (S k < length done)%nat) by lia.
  destruct (H k K1) as (F1 & _ & G1). destruct (H (S k) K2) as (F2 & _ & G2). destruct (G1 0%nat w Hw) as (r & R1 & R2). destruct (G2 0%nat w Hw) as (s & S1 & S2). exists r, s. split; [exact R1|]. split; [exact S1|]. rewrite F1, F2.
  unfold reported, before in S2, R2. destruct (match k with O => _ | S _ => _ end) as [t0 old]. destruct (nth k done (0, [])) as [t1 y1]. destruct (nth (S k) done (0, [])) as [t2 y2]. cbn [fst]. destruct R2 as (_ & _ & _ & X1 & _). destruct S2 as (_ & _ & _ & X2 & _ & _ & V & _). rewrite V, X1, X2. reflexivity.
Qed.
Theorem c51_second_velocity_refuted : exists ws y0 trace rows r s, run_walls ws y0 trace = Ok rows /\
  nth_error (snd (nth 0 rows (0, []))) 1 = Some r /\ nth_error (snd (nth 1 rows (0, []))) 1 = Some s /\ r_x s = r_x r /\ r_v s <> 0.
Proof.
  destruct c51_run_ex as (rows & H & L). exists (Walls [ex_wall DYNAMIC; ex_wall NO_RELAX] 7), [1; 2; 3; 4; 5; 6], [RK Running 1 [2; 2; 3; 4; 5; 6]; RK Finished 3 [3; 2; 3; 4; 5; 6]], rows.
  pose proof H as H0. apply c51_run in H. destruct H as (done & (rest & Ed & Er) & _ & H). cbn [accepted rk_status_of rk_t rk_y] in Er. rewrite Er in Ed. subst done. assert (K0 : (0 < 2)%nat) by lia. assert (K1 : (1 < 2)%nat) by lia. destruct (H 0%nat K0) as (_ & _ & G1). destruct (H 1%nat K1) as (_ & _ & G2). destruct (G1 1%nat (ex_wall NO_RELAX) eq_refl) as (r & R1 & R2). destruct (G2 1%nat (ex_wall NO_RELAX) eq_refl) as (s & S1 & S2).
  exists r, s. split; [exact H0|]. split; [exact R1|]. split; [exact S1|]. unfold reported in R2, S2. cbn [before nth rk_t rk_y] in R2, S2. destruct R2 as (_ & _ & _ & X1 & _). destruct S2 as (_ & _ & _ & X2 & _ & _ & V & _). cbn [nth Nat.mul Nat.add] in *.
  split; [rewrite X1, X2; reflexivity|]. rewrite V. rewrite Rabs_pos_eq by lra. lra.
Qed.
(** With static relaxation the reported width is not the one the wall moves with. *)
Theorem c51_static_width_unused_refuted : exists ws y0 t y rows r, run_walls ws y0 [RK Finished t y] = Ok rows /\ nth_error (snd (nth 0 rows (0, []))) 0 = Some r /\
  r_dw r <> nth 2 y 0 /\ forall out, multilayer_dw_llg ws t y = Ok out -> nth 2 out 0 = 0.
Proof.
  exists (Walls [ex_wall STATIC] 7), [1; 0; 1], 1, [2; 0; 1], [(1, [WallRow (sqrt (2 / 8) / sqrt (1 + 2 / 8 * (sin 0 * sin 0))) ((2 - 1) / Rabs (1 - 0)) 2 0 0])]. eexists. split; [|split; [reflexivity|split]].
  - apply c51_run. exists [(1, [2; 0; 1])]. split; [reflexivity|]. split; [reflexivity|]. intros k Hk. cbn in Hk. destruct k; [|lia]. cbn [nth fst snd length ws_layers]. split; [reflexivity|]. split; [reflexivity|].
    intros [|[|?]] w Hw; cbn in Hw; try discriminate. injection Hw as <-. eexists. split; [reflexivity|]. unfold reported. cbn -[Rabs sin sqrt]. rewrite sin_0. repeat split; try lra; try lia.
  - cbn [r_dw nth]. rewrite sin_0. replace (1 + 2 / 8 * (0 * 0)) with 1 by lra. rewrite sqrt_1. intros E. assert (S : sqrt (2 / 8) = 1) by lra. assert (Q : sqrt (2 / 8) * sqrt (2 / 8) = 2 / 8) by (apply sqrt_sqrt; lra). rewrite S in Q. lra.
  - intros out H. apply llg_iff in H. destruct H as [_ H]. destruct (H 0%nat (ex_wall STATIC) eq_refl) as (_ & _ & hk & _ & E). unfold rates in E. apply (f_equal snd) in E. cbn [snd] in E. cbn in E. exact E.
Qed.
Print Assumptions c51_constructed.
Print Assumptions c51_unrelaxed_width.
Print Assumptions c51_at_most_two.
Print Assumptions c51_current_only.
Print Assumptions c51_moves.
Print Assumptions c51_one_dissipates.
Print Assumptions c51_pair_dissipates.
Print Assumptions c51_coupling_opposite.
Print Assumptions c51_no_coupling_aligned.
Print Assumptions c51_undamped_fails.
Print Assumptions c51_static_width.
Print Assumptions c51_width_settles.
Print Assumptions c51_pinning_field.
Print Assumptions c51_field_contribution.
Print Assumptions c51_run.
Print Assumptions c51_first_velocity.
Print Assumptions c51_second_velocity_refuted.
Print Assumptions c51_static_width_unused_refuted.
