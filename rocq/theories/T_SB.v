(** C54, C55, C56, C67, C68, C69, C70, C71, C72: the Smit-Beljers solver. *)
From Verif Require Import P_SBTheorems P_Sym P_Resist P_Vec P_SB P_SBDescent P_SBMotion P_SBResponse.
From Coq Require Import Psatz FunctionalExtensionality Permutation.
Open Scope R_scope.
Open Scope st_scope.

(** ** A two-layer system for the examples *)
Definition ex_dyn : dynamics := Dynamics (/ 10) 2 3.
Definition ex_film (i : nat) (t : R) : layerSB := LayerSB i t (VO 0 1 20) 30 4 (Some (VO 1 2 3)) (VO 0 0 1) (Some ex_dyn).
Definition ex_pair : solver := Solver [ex_film 0 1; ex_film 1 2] [5] [6] (Some (VO 1 1 7)) [CV 1 2 3] (Some [Ten (CV 1 0 0) (CV 0 1 0) (CV 0 0 1)]).
Lemma ex_distinct : distinct ex_pair.
Proof. unfold distinct, ex_pair. cbn. repeat constructor; cbn; intuition discriminate. Qed.
Lemma ex_energy : exists E, create_energy ex_pair None false = Ok E.
Proof. apply energy_ok. right. discriminate. Qed.

(** ** C54 *)
(** The module-level hessian of any energy that is defined everywhere. *)
Theorem c54_hessian : forall N E, (forall rho, defined rho E) ->
  smit_beljers N Theta Phi (fun i rho => rho Omega * rho (SymMs i) * sin (rho (Theta i)) * rho (SymT i)) (fun rho => eval rho E) (get_hessian_from_energy_expr N E).
Proof. intros N E D. apply (hessian_good Theta Phi (fun i => EMul (EMul (EMul (ESym Omega) (ESym (SymMs i))) (ESin (ESym (Theta i)))) (ESym (SymT i))) E N _ D). reflexivity. Qed.
Theorem c54_hermitian : forall N E, (forall rho, defined rho E) -> hermitian (2 * N) (get_hessian_from_energy_expr N E).
Proof. intros N E D. apply loop_hermitian, D. Qed.
(** The solver's hessian, from the energy of its layers in its field. *)
Theorem c54_solver_hessian : forall s h, energy_hessian s = Ok h -> exists v, sv_H s = Some v /\
  smit_beljers (length (sv_layers s)) (fun i => Theta (sb_id (the_layer s i))) (fun i => Phi (sb_id (the_layer s i)))
    (fun i rho => rho Omega / gamma * sb_Ms (the_layer s i) * sin (rho (Theta (sb_id (the_layer s i)))) * sb_thickness (the_layer s i)) (system_energy s (get_cartesian v)) h.
Proof. exact energy_hessian_iff. Qed.
Theorem c54_solver_hermitian : forall s h, energy_hessian s = Ok h -> hermitian (2 * length (sv_layers s)) h.
Proof. exact solver_hermitian. Qed.
Theorem c54_solver_hessian_available : forall s, (exists h, energy_hessian s = Ok h) <-> sv_H s <> None.
Proof. exact solver_hessian_ok. Qed.
(** One layer: the determinant vanishes at the Smit-Beljers frequency, whatever the thickness. *)
Theorem c54_one_layer_roots : forall l t H h rho a b c, t <> 0 -> energy_hessian (one_layer (with_thickness t l) H) = Ok h ->
  let f r := film_energy l (get_cartesian H) (direction l r) in
  partial2 f rho (sb_theta l) (sb_theta l) a -> partial2 f rho (sb_phi l) (sb_phi l) b -> partial2 f rho (sb_theta l) (sb_phi l) c ->
  det2 h rho = (0, 0) <-> square (rho Omega / gamma * sb_Ms l * sin (rho (sb_theta l))) = a * b - square c.
Proof. exact one_det. Qed.
Example c54_example : (exists h, energy_hessian ex_pair = Ok h) /\ (exists h, energy_hessian (one_layer (with_thickness 2 (ex_film 0 1)) (VO 1 1 7)) = Ok h) /\
  forall rho, defined rho (EMul (ESin (ESym (Theta 0))) (ECos (ESym (Phi 1)))).
Proof. split; [apply solver_hessian_ok; discriminate|]. split; [apply solver_hessian_ok; discriminate|]. intros rho. cbn. tauto. Qed.

(** ** C55 *)
Theorem c55_adam : forall grad p max_steps perturbation noise init r,
  adam_gradient_descent grad p max_steps perturbation noise init = Ok r <->
  exists xs gs, descends (adam_next p) grad (dp_tol p) (Z.to_nat max_steps) (perturbed perturbation noise init) xs gs r.
Proof. exact adam_iff. Qed.
Theorem c55_amsgrad : forall grad p max_steps perturbation noise init r,
  amsgrad_gradient_descent grad p max_steps perturbation noise init = Ok r <->
  exists xs gs, descends (amsgrad_next p) grad (dp_tol p) (Z.to_nat max_steps) (perturbed perturbation noise init) xs gs r.
Proof. exact amsgrad_iff. Qed.
(** A descent from a gradient that always answers never fails. *)
Theorem c55_adam_answers : forall grad p mx pert noise init, 0 <= dp_b1 p < 1 -> 0 <= dp_b2 p < 1 -> (forall x, exists g, grad x = Ok g /\ length g = length x) ->
  exists r, adam_gradient_descent grad p mx pert noise init = Ok r.
Proof. exact adam_total. Qed.
Theorem c55_amsgrad_answers : forall grad p mx pert noise init, (forall x, exists g, grad x = Ok g /\ length g = length x) ->
  exists r, amsgrad_gradient_descent grad p mx pert noise init = Ok r.
Proof. exact amsgrad_total. Qed.
(** Whatever the gradients, one step is bounded, hence the whole path. *)
Theorem c55_adam_step : forall p gs x y c, 0 <= dp_b1 p < 1 -> dp_b1 p ^ 2 < dp_b2 p < 1 -> 0 <= dp_rate p -> (0 < length gs)%nat -> adam_next p gs x y -> (c < length x)%nat ->
  Rabs (nth c y 0 - nth c x 0) <= dp_rate p / sqrt ((1 - dp_b2 p) * (1 - dp_b1 p ^ 2 / dp_b2 p)).
Proof. intros p gs x y c B1 B2 B3. exact (adam_bound p B1 B2 B3 gs x y c). Qed.
Theorem c55_amsgrad_step : forall p gs x y c, 0 <= dp_b1 p < 1 -> dp_b1 p ^ 2 < dp_b2 p < 1 -> 0 <= dp_rate p -> (0 < length gs)%nat -> amsgrad_next p gs x y -> (c < length x)%nat ->
  Rabs (nth c y 0 - nth c x 0) <= dp_rate p * (1 - dp_b1 p) / sqrt ((1 - dp_b2 p) * (1 - dp_b1 p ^ 2 / dp_b2 p)).
Proof. intros p gs x y c B1 B2 B3. exact (amsgrad_bound p B1 B2 B3 gs x y c). Qed.
Lemma scale_pos p : 0 <= dp_b1 p < 1 -> dp_b1 p ^ 2 < dp_b2 p < 1 -> 0 < sqrt ((1 - dp_b2 p) * (1 - dp_b1 p ^ 2 / dp_b2 p)).
Proof.
  intros B1 B2. pose proof (pow2_ge_0 (dp_b1 p)). apply sqrt_lt_R0, Rmult_lt_0_compat; [lra|]. assert (dp_b1 p ^ 2 / dp_b2 p < 1); [|lra]. apply Rmult_lt_reg_r with (dp_b2 p); [lra|]. unfold Rdiv. rewrite Rmult_assoc, Rinv_l by lra. lra.
Qed.
Theorem c55_adam_reach : forall grad p mx pert noise init r c, 0 <= dp_b1 p < 1 -> dp_b1 p ^ 2 < dp_b2 p < 1 -> 0 <= dp_rate p ->
  adam_gradient_descent grad p mx pert noise init = Ok r -> (c < length (perturbed pert noise init))%nat ->
  Rabs (nth c r 0 - nth c (perturbed pert noise init) 0) <= INR (Z.to_nat mx) * (dp_rate p / sqrt ((1 - dp_b2 p) * (1 - dp_b1 p ^ 2 / dp_b2 p))).
Proof.
  intros grad p mx pert noise init r c B1 B2 B3 H Hc. apply adam_iff in H. destruct H as (xs & gs & H). pose proof (scale_pos p B1 B2).
  apply (descends_far (adam_next p) grad (dp_tol p) (Z.to_nat mx) _ xs gs); [|intros ? ? ? N; exact (proj1 N)|intros; apply (adam_bound p B1 B2 B3) with gs0; assumption|exact H|exact Hc].
  apply Rmult_le_pos; [exact B3|left; apply Rinv_0_lt_compat; assumption].
Qed.
Theorem c55_amsgrad_reach : forall grad p mx pert noise init r c, 0 <= dp_b1 p < 1 -> dp_b1 p ^ 2 < dp_b2 p < 1 -> 0 <= dp_rate p ->
  amsgrad_gradient_descent grad p mx pert noise init = Ok r -> (c < length (perturbed pert noise init))%nat ->
  Rabs (nth c r 0 - nth c (perturbed pert noise init) 0) <= INR (Z.to_nat mx) * (dp_rate p * (1 - dp_b1 p) / sqrt ((1 - dp_b2 p) * (1 - dp_b1 p ^ 2 / dp_b2 p))).
Proof.
  intros grad p mx pert noise init r c B1 B2 B3 H Hc. apply amsgrad_iff in H. destruct H as (xs & gs & H). pose proof (scale_pos p B1 B2).
  apply (descends_far (amsgrad_next p) grad (dp_tol p) (Z.to_nat mx) _ xs gs); [|intros ? ? ? N; exact (proj1 N)|intros; apply (amsgrad_bound p B1 B2 B3) with gs0; assumption|exact H|exact Hc].
  apply Rmult_le_pos; [apply Rmult_le_pos; [exact B3|lra]|left; apply Rinv_0_lt_compat; assumption].
Qed.
(** An equilibrium is returned unchanged. *)
Theorem c55_stationary_start : forall grad p mx noise init, dp_b1 p <> 1 -> dp_b2 p <> 1 -> 0 < dp_tol p -> grad init = Ok (map (fun _ => 0) init) ->
  adam_gradient_descent grad p mx 0 noise init = Ok init.
Proof. exact adam_stationary. Qed.
Definition ex_params : descent_params := DP (/ 10 ^ 9) (/ 10 ^ 4) (9 / 10) (999 / 1000).
Example c55_example : 0 <= dp_b1 ex_params < 1 /\ dp_b1 ex_params ^ 2 < dp_b2 ex_params < 1 /\ 0 <= dp_rate ex_params /\ 0 < dp_tol ex_params /\
  (exists r, adam_gradient_descent (fun x => Ok (map (fun y => 2 * y + 1) x)) ex_params 1000 1 [1; 2] [3; 4] = Ok r) /\
  (exists r, amsgrad_gradient_descent (fun x => Ok (map (fun y => 2 * y + 1) x)) ex_params 1000 1 [1; 2] [3; 4] = Ok r).
Proof.
  unfold ex_params. cbn [dp_b1 dp_b2 dp_rate dp_tol].
  split; [lra|]. split; [lra|]. split; [left; apply Rinv_0_lt_compat; lra|]. split; [apply Rinv_0_lt_compat; lra|].
  split; [apply adam_total; cbn [dp_b1 dp_b2]; [lra|lra|]|apply amsgrad_total]; intros x; eexists; (split; [reflexivity|apply map_length]).
Qed.

(** ** C56 *)
Theorem c56_volumetric_ignored : forall s H, create_energy s H true = create_energy s H false.
Proof. reflexivity. Qed.
(** A scan equilibrates in each field from the previous equilibrium. Without a start it overwrites the first field. *)
Theorem c56_scan : forall descend roots heap refs init s heap' s' outs, analytical_field_scan descend roots heap refs init s = Ok (heap', s', outs) <->
  match init with
  | Some p => heap' = heap /\ exists fields, Forall2 (fun r H => nth_error heap r = Some H) refs fields /\ scanned descend roots s fields p outs s'
  | None => exists h0 start, nth_error refs 0 = Some h0 /\ nth_error heap h0 = Some start /\
      length heap' = length heap /\ (forall j, j <> h0 -> nth_error heap' j = nth_error heap j) /\ nth_error heap' h0 = Some (VO (vo_theta start) (vo_phi start) 1) /\
      exists fields, Forall2 (fun r H => nth_error heap' r = Some H) refs fields /\
        scanned descend roots s fields (concat (repeat [vo_theta start; vo_phi start] (length (sv_layers s)))) outs s'
  end.
Proof. exact scan_iff. Qed.
(** A scan does not keep the fields it is given: the first is scanned with magnitude 1. *)
Theorem c56_scan_keeps_fields_refuted : exists descend roots heap refs s heap' s' outs,
  analytical_field_scan descend roots heap refs None s = Ok (heap', s', outs) /\ heap' <> heap /\ exists eq r H, nth_error outs 0 = Some (eq, r, H) /\ vo_mag H = 1 /\ vo_mag (nth 0 heap (VO 0 0 0)) = 5.
Proof.
  exists (fun _ p => Ok p), (fun _ _ => Ok []), [VO 1 2 5], [0%nat], ex_pair. do 3 eexists. split; [reflexivity|]. split; [intros X; injection X; intros; lra|]. do 3 eexists. split; [reflexivity|]. split; reflexivity.
Qed.
Example c56_example : exists s' outs, analytical_field_scan (fun _ p => Ok p) (fun eq H => Ok [vo_mag H]) [VO 1 2 5; VO 1 2 6] [1%nat; 0%nat; 1%nat] None ex_pair =
  Ok ([VO 1 2 5; VO 1 2 1], s', outs) /\ map (fun o => snd (fst o)) outs = [[1]; [5]; [1]].
Proof. do 2 eexists. split; reflexivity. Qed.

(** ** C67 *)
(** The energy expression denotes the energy of the layers in vector form. *)
Theorem c67_energy : forall s H vol E, create_energy s H vol = Ok E -> exists h, (H = Some h \/ H = None /\ exists v, sv_H s = Some v /\ h = cart (get_cartesian v)) /\
  forall rho, eval rho E = system_energy s (field_at rho h) rho.
Proof. exact energy_eval. Qed.
Theorem c67_energy_available : forall s H vol, (exists E, create_energy s H vol = Ok E) <-> H <> None \/ sv_H s <> None.
Proof. exact energy_ok. Qed.
Theorem c67_layer_energy : forall rho l h a b c d up down, eval rho (total_symbolic_layer_energy l h a b c d up down) =
  sb_thickness l * film_energy l (field_at rho h) (direction l rho) +
  match up with None => 0 | Some o => coupling a c Zero (direction l rho) (direction o rho) end + match down with None => 0 | Some o => coupling b d Zero (direction l rho) (direction o rho) end.
Proof. exact layer_energy_eval. Qed.
Lemma dot_zero v : Dot Zero v = 0.
Proof. destruct v as [v1 v2 v3]. unfold Dot, Zero. ring. Qed.
(** The sum of layer energies counts each coupling twice. *)
Theorem c67_two_layer_sum : forall s la lb j k H E h rho, sv_layers s = [la; lb] -> sv_J1 s = [j] -> sv_J2 s = [k] -> sv_ilD s = [Zero] -> sv_dipole s = None -> H = Some h ->
  create_energy s H false = Ok E ->
  eval rho (total_symbolic_layer_energy la h 0 j 0 k None (Some lb)) + eval rho (total_symbolic_layer_energy lb h j 0 k 0 (Some la) None) =
  eval rho E + coupling j k Zero (direction la rho) (direction lb rho).
Proof.
  intros s la lb j k H E h rho L J K D P -> HE. rewrite !layer_energy_eval. destruct (energy_eval _ _ _ _ HE) as (h' & [X|[X _]] & ->); [injection X as <-|discriminate].
  unfold system_energy, the_layer. rewrite L, J, K, D, P. cbn [length Nat.sub Sigma nth]. unfold coupling. set (a := direction la rho). set (b := direction lb rho).
  rewrite (Dot_comm b a), !dot_zero. clear. generalize (Dot a b). intros x. ring.
Qed.
Example c67_example : (exists E, create_energy ex_pair None false = Ok E) /\
  exists E, create_energy (one_layer (LayerSB 0 2 (VO 0 0 3) 5 0 None (VO 0 0 0) None) (VO 1 1 7)) None false = Ok E /\ eval (fun _ => 0) E = - 10.
Proof.
  split; [exact ex_energy|]. eexists. split; [reflexivity|]. cbn. rewrite ?sin_0, ?cos_0. ring.
Qed.

(** ** C68 *)
(** The gradient handed to the descent holds the partial derivatives of the energy. *)
Theorem c68_gradient : forall s pos g, distinct s -> gradfn s pos = Ok g <->
  exists v, sv_H s = Some v /\ length pos = (2 * length (sv_layers s))%nat /\ length g = (2 * length (sv_layers s))%nat /\
  forall k rho, (k < 2 * length (sv_layers s))%nat -> placed s pos rho -> partial (system_energy s (get_cartesian v)) rho (angle s k) (nth k g 0).
Proof. exact gradfn_iff. Qed.
(** Equilibrium of a solver that starts in a stationary point: the point itself. *)
Theorem c68_stationary : forall s v p mx noise pos, distinct s -> sv_H s = Some v -> dp_b1 p <> 1 -> dp_b2 p <> 1 -> 0 < dp_tol p -> length pos = (2 * length (sv_layers s))%nat ->
  (forall k rho, (k < 2 * length (sv_layers s))%nat -> placed s pos rho -> partial (system_energy s (get_cartesian v)) rho (angle s k) 0) ->
  adam_gradient_descent (gradfn s) p mx 0 noise pos = Ok pos.
Proof.
  intros s v p mx noise pos D Hv B1 B2 T L Z. apply adam_stationary; [exact B1|exact B2|exact T|]. apply gradfn_iff; [exact D|]. exists v. split; [exact Hv|]. split; [exact L|]. split; [rewrite map_length; exact L|].
  intros k rho Hk P. rewrite (map_nth (fun _ => 0) pos 0). apply Z; assumption.
Qed.
Example c68_example : distinct ex_pair /\ exists g, gradfn ex_pair [1; 2; 1; 2] = Ok g /\ length g = 4%nat.
Proof.
  split; [apply ex_distinct|]. destruct ex_energy as [E HE]. unfold gradfn. rewrite HE. cbn [rbind].
  destruct (proj2 (subs_ok (sv_layers ex_pair) [1; 2; 1; 2] nothing) ltac:(cbn; lia)) as [rho Hr]. 
  pose proof (energy_none_whole ex_pair false E HE) as W.
  destruct (gradfn ex_pair [1; 2; 1; 2]) as [g|e] eqn:G.
  - unfold gradfn in G. rewrite HE in G. cbn [rbind] in G. exists g. split; [exact G|]. assert (G2 : gradfn ex_pair [1; 2; 1; 2] = Ok g) by (unfold gradfn; rewrite HE; exact G). apply (gradfn_iff _ _ _ ex_distinct) in G2. destruct G2 as (v & _ & _ & L & _). exact L.
  - exfalso. revert G. cut (exists g, gradfn ex_pair [1; 2; 1; 2] = Ok g); [intros [g G]; congruence|]. exists (map (fun k => eval rho (diff E (angle ex_pair k))) (seq 0 4)).
    apply (gradfn_iff _ _ _ ex_distinct). exists (VO 1 1 7). split; [reflexivity|]. split; [reflexivity|]. split; [reflexivity|]. intros k r Hk P. cbn in Hk.
    replace (nth k (map (fun k => eval rho (diff E (angle ex_pair k))) (seq 0 4)) 0) with (eval rho (diff E (angle ex_pair k))) by (do 4 (destruct k as [|k]; [reflexivity|]); lia).
    apply (partial_local ex_pair (get_cartesian (VO 1 1 7)) rho r); [intros j Hj; rewrite (P j Hj); apply (subs_placed _ _ _ _ ex_distinct Hr); exact Hj|rewrite (P k Hk); apply (subs_placed _ _ _ _ ex_distinct Hr); exact Hk|].
    replace (system_energy ex_pair (get_cartesian (VO 1 1 7))) with (fun r => eval r E); [apply diff_partial, whole_defined, W|]. apply functional_extensionality. intros q. apply (energy_none ex_pair false E (VO 1 1 7) eq_refl HE).
Qed.

(** ** C69 *)
(** The spherical right hand side is the Landau-Lifshitz-Gilbert equation with the energy's field. *)
Theorem c69_motion : forall l d U (osc : bool) rho ut up, soft_sin (rho (sb_theta l)) <> 0 -> sb_Ms l <> 0 -> defined rho U ->
  partial (fun r => eval r U) rho (sb_theta l) ut -> partial (fun r => eval r U) rho (sb_phi l) up ->
  forall rate, moves l d (rho (sb_theta l)) (rho (sb_phi l)) ut up (if osc then rho Hoe else 0) (if osc then rho Vp else 1) rate <->
  rate = (eval rho (fst (rhs_spherical_llg l d U osc)), eval rho (snd (rhs_spherical_llg l d U osc))).
Proof. exact rhs_moves. Qed.
(** Without torques the energy decreases at the rate set by the damping. *)
Theorem c69_dissipation : forall l d U rho ut up, soft_sin (rho (sb_theta l)) <> 0 -> sb_Ms l <> 0 -> dy_torque_par d = 0 -> dy_torque_perp d = 0 -> defined rho U ->
  partial (fun r => eval r U) rho (sb_theta l) ut -> partial (fun r => eval r U) rho (sb_phi l) up ->
  ut * eval rho (fst (rhs_spherical_llg l d U false)) + up * eval rho (snd (rhs_spherical_llg l d U false)) =
  - gamma_rad * dy_alpha d / ((1 + square (dy_alpha d)) * sb_Ms l) * (square ut + square (up / soft_sin (rho (sb_theta l)))).
Proof.
  intros l d U rho ut up S M T1 T2 D P1 P2. apply (dissipation l d (rho (sb_theta l)) (rho (sb_phi l)) ut up); [exact S|exact M|exact T1|exact T2|]. apply (rhs_moves l d U false rho ut up S M D P1 P2). reflexivity.
Qed.
Theorem c69_never_gains : forall l d U rho ut up, soft_sin (rho (sb_theta l)) <> 0 -> 0 < sb_Ms l -> 0 <= dy_alpha d -> dy_torque_par d = 0 -> dy_torque_perp d = 0 -> defined rho U ->
  partial (fun r => eval r U) rho (sb_theta l) ut -> partial (fun r => eval r U) rho (sb_phi l) up ->
  ut * eval rho (fst (rhs_spherical_llg l d U false)) + up * eval rho (snd (rhs_spherical_llg l d U false)) <= 0.
Proof.
  intros l d U rho ut up S M A T1 T2 D P1 P2. rewrite (c69_dissipation l d U rho ut up S ltac:(lra) T1 T2 D P1 P2).
  assert (0 <= gamma_rad) by (unfold gamma_rad; lra). assert (0 <= square (dy_alpha d)) by (unfold square; nra). assert (0 <= square ut + square (up / soft_sin (rho (sb_theta l)))) by (unfold square; nra).
  assert (0 <= gamma_rad * dy_alpha d / ((1 + square (dy_alpha d)) * sb_Ms l)) by (apply Rmult_le_pos; [nra|left; apply Rinv_0_lt_compat; nra]).
  replace (- gamma_rad * dy_alpha d / ((1 + square (dy_alpha d)) * sb_Ms l)) with (- (gamma_rad * dy_alpha d / ((1 + square (dy_alpha d)) * sb_Ms l))) by (unfold Rdiv; ring). nra.
Qed.
(** The two torques act as T - alpha m x T. *)
Theorem c69_torque : forall l d rho, let t := rho (sb_theta l) in let p := rho (sb_phi l) in
  let T := Plus (Scal (- dy_torque_par d * sin t) (e_theta t p)) (Scal (- dy_torque_perp d * sin t) (e_phi p)) in
  Plus (Scal (eval rho (fst (torque l d false))) (e_theta t p)) (Scal (sin t * eval rho (snd (torque l d false))) (e_phi p)) = Plus T (Scal (- dy_alpha d) (Cross (point t p 1) T)).
Proof. intros l d rho. exact (torque_form l d rho 1 eq_refl). Qed.
(** The damping of the field's torque, T + alpha m x T, does not carry over to the spin torques. *)
Theorem c69_torque_damped_like_field_refuted : exists l d rho, let t := rho (sb_theta l) in let p := rho (sb_phi l) in
  let T := Plus (Scal (- dy_torque_par d * sin t) (e_theta t p)) (Scal (- dy_torque_perp d * sin t) (e_phi p)) in
  Plus (Scal (eval rho (fst (torque l d false))) (e_theta t p)) (Scal (sin t * eval rho (snd (torque l d false))) (e_phi p)) <> Plus T (Scal (dy_alpha d) (Cross (point t p 1) T)).
Proof.
  exists (ex_film 0 1), (Dynamics 1 1 0), (fun s => match s with Theta _ => PI / 2 | _ => 0 end). cbv zeta. rewrite c69_torque. intros X. apply (f_equal cy) in X. revert X.
  unfold sb_theta, sb_phi, Plus, Scal, Cross, point, e_theta, e_phi. cbn [dy_alpha dy_torque_par dy_torque_perp cx cy cz]. rewrite sin_PI2, cos_PI2, sin_0, cos_0. intros X. lra.
Qed.
Example c69_example : let l := ex_film 0 1 in let rho := fun s => match s with Theta _ => 1 | _ => 0 end in let U := EMul (ESin (ESym (Theta 0))) (ESin (ESym (Phi 0))) in
  0 < soft_sin (rho (sb_theta l)) /\ sb_Ms l = 4 /\ defined rho U /\ partial (fun r => eval r U) rho (sb_theta l) 0 /\ partial (fun r => eval r U) rho (sb_phi l) (sin 1).
Proof.
  cbv zeta. assert (S1 : 0 < sin 1) by (apply sin_gt_0; [lra|pose proof PI_RGT_0; pose proof PI2_3_2; lra]). split; [unfold soft_sin, sb_theta; assert (0 < / 10 ^ 15) by (apply Rinv_0_lt_compat, pow_lt; lra); lra|]. split; [reflexivity|].
  set (U := EMul (ESin (ESym (Theta 0))) (ESin (ESym (Phi 0)))). set (rho := fun s => match s with Theta _ => 1 | _ => 0 end). assert (D : defined rho U) by (cbn; tauto). split; [exact D|].
  split; [replace 0 with (eval rho (diff U (Theta 0))); [exact (diff_partial U rho (Theta 0) D)|cbn; rewrite sin_0; ring]|replace (sin 1) with (eval rho (diff U (Phi 0))); [exact (diff_partial U rho (Phi 0) D)|cbn; rewrite cos_0; ring]].
Qed.

(** ** C70 *)
Theorem c70_resonance : forall s i pos f v, distinct s -> sv_H s = Some v -> (i < length (sv_layers s))%nat -> length pos = (2 * length (sv_layers s))%nat ->
  forall rho a b c, placed s pos rho -> partial2 (system_energy s (get_cartesian v)) rho (angle s (2 * i)) (angle s (2 * i)) a ->
  partial2 (system_energy s (get_cartesian v)) rho (angle s (2 * i + 1)) (angle s (2 * i + 1)) b -> partial2 (system_energy s (get_cartesian v)) rho (angle s (2 * i)) (angle s (2 * i + 1)) c ->
  single_layer_resonance s i pos = Ok f <->
  let q := sin (nth (2 * i) pos 0 + / 10 ^ 18) * sb_Ms (the_layer s i) in
  q <> 0 /\ 0 <= a * b - square c /\ f = sqrt ((a * b - square c) / square q) * gamma_rad / (2 * PI).
Proof. exact resonance_iff. Qed.
(** The frequency of a single layer is proportional to its thickness. *)
Theorem c70_thickness : forall l H t pos f, 0 < t ->
  single_layer_resonance (one_layer (with_thickness 1 l) H) 0 pos = Ok f <-> single_layer_resonance (one_layer (with_thickness t l) H) 0 pos = Ok (t * f).
Proof. exact thickness_resonance. Qed.
Definition ex_zeeman : layerSB := LayerSB 0 1 (VO 0 0 0) 0 1 None (VO 0 0 0) None.
Lemma ex_resonance : exists f, 0 < f /\ single_layer_resonance (one_layer (with_thickness 1 ex_zeeman) (VO (PI / 2) 0 1)) 0 [PI / 2; 0] = Ok f.
Proof.
  set (s := one_layer (with_thickness 1 ex_zeeman) (VO (PI / 2) 0 1)). set (rho := fun u => match u with Theta _ => PI / 2 | _ => 0 end).
  assert (W : exists E, create_energy s None false = Ok E) by (apply energy_ok; right; discriminate). destruct W as [E HE].
  pose proof (energy_none_whole s false E HE) as W. pose proof (energy_none s false E (VO (PI / 2) 0 1) eq_refl HE) as V.
  assert (F : (fun r => eval r E) = system_energy s (get_cartesian (VO (PI / 2) 0 1))) by (apply functional_extensionality; exact V).
  assert (P : placed s [PI / 2; 0] rho). { intros k Hk. cbn in Hk. do 2 (destruct k as [|k]; [reflexivity|]). lia. }
  pose proof (diff_partial2 E rho (angle s 0) (angle s 0) W) as Pa. pose proof (diff_partial2 E rho (angle s 1) (angle s 1) W) as Pb. pose proof (diff_partial2 E rho (angle s 0) (angle s 1) W) as Pc. rewrite F in Pa, Pb, Pc.
  unfold create_energy in HE. cbn in HE. injection HE as HE.
  assert (Ea : eval rho (diff (diff E (angle s 0)) (angle s 0)) = mu0) by (rewrite <- HE; cbn; rewrite ?sin_PI2, ?cos_PI2, ?sin_0, ?cos_0; field).
  assert (Eb : eval rho (diff (diff E (angle s 1)) (angle s 1)) = mu0) by (rewrite <- HE; cbn; rewrite ?sin_PI2, ?cos_PI2, ?sin_0, ?cos_0; field).
  assert (Ec : eval rho (diff (diff E (angle s 0)) (angle s 1)) = 0) by (rewrite <- HE; cbn; rewrite ?sin_PI2, ?cos_PI2, ?sin_0, ?cos_0; field).
  rewrite Ea in Pa. rewrite Eb in Pb. rewrite Ec in Pc.
  assert (Dd : distinct s) by (unfold distinct, s; cbn; repeat constructor; intros []).
  assert (C0 : 0 < cos (/ 10 ^ 18)). { apply cos_gt_0; [|]; pose proof PI2_3_2; assert (0 < / 10 ^ 18 < 1) by (split; [apply Rinv_0_lt_compat; lra|rewrite <- Rinv_1; apply Rinv_lt_contravar; lra]); lra. }
  assert (Q : sin (PI / 2 + / 10 ^ 18) = cos (/ 10 ^ 18)) by (rewrite sin_plus, sin_PI2, cos_PI2; ring).
  assert (M : 0 < mu0) by (unfold mu0; lra).
  exists (sqrt ((mu0 * mu0 - square 0) / square (sin (PI / 2 + / 10 ^ 18) * 1)) * gamma_rad / (2 * PI)). split.
  - apply Rdiv_lt_0_compat; [|pose proof PI_RGT_0; lra]. apply Rmult_lt_0_compat; [|unfold gamma_rad; lra]. apply sqrt_lt_R0. rewrite Q. unfold square. apply Rdiv_lt_0_compat; nra.
  - apply (resonance_iff s 0 [PI / 2; 0] _ (VO (PI / 2) 0 1) Dd eq_refl ltac:(cbn; lia) eq_refl rho mu0 mu0 0 P Pa Pb Pc). cbv zeta. change (nth (2 * 0) [PI / 2; 0] 0) with (PI / 2). change (sb_Ms (the_layer s 0)) with 1.
    split; [rewrite Q; lra|]. split; [unfold square; nra|reflexivity].
Qed.
Theorem c70_thickness_independent_refuted : exists l H pos f, 0 < f /\ single_layer_resonance (one_layer (with_thickness 1 l) H) 0 pos = Ok f /\
  single_layer_resonance (one_layer (with_thickness 2 l) H) 0 pos = Ok (2 * f).
Proof.
  destruct ex_resonance as (f & P & Hf). exists ex_zeeman, (VO (PI / 2) 0 1), [PI / 2; 0], f. split; [exact P|]. split; [exact Hf|]. apply (thickness_resonance ex_zeeman (VO (PI / 2) 0 1) 2 [PI / 2; 0] f); [lra|exact Hf].
Qed.
Example c70_example : exists f, single_layer_resonance (one_layer (with_thickness 1 ex_zeeman) (VO (PI / 2) 0 1)) 0 [PI / 2; 0] = Ok f.
Proof. destruct ex_resonance as (f & _ & H). eauto. Qed.

(** ** C71 *)
Theorem c71_jacobian : forall s h J syms, steady h -> compose_llg_jacobian s h = Ok (J, syms) ->
  let n := (2 * length (sv_layers s))%nat in
  length J = n /\ length syms = n /\ (forall c, (c < n)%nat -> nth_error syms c = Some (angle s c)) /\
  exists F, motion s (fun rho => field_at rho h) false F /\
  forall r, (r < n)%nat -> exists row, nth_error J r = Some row /\ length row = n /\ forall c rho, (c < n)%nat -> regular s rho -> partial (F r) rho (angle s c) (eval rho (nth c row (ENum 0))).
Proof. exact jacobian_spec. Qed.
Theorem c71_jacobian_available : forall s h, (exists r, compose_llg_jacobian s h = Ok r) <-> forall l, In l (sv_layers s) -> sb_dyn l <> None.
Proof. exact jacobian_ok. Qed.
Theorem c71_linear_system : forall s var h frequency A V, steady h -> compute_A_and_V s var h frequency = Ok (A, V) ->
  let n := (2 * length (sv_layers s))%nat in
  exists F, motion s (fun rho => field_at rho h) true F /\ length V = n /\
  forall r rho, (r < n)%nat -> regular s rho -> partial (F r) rho var (eval rho (nth r V (ENum 0))) /\
    forall c, (c < n)%nat -> exists j, partial (F r) rho (angle s c) j /\
      eval rho (fst (A r c)) = - (1 + square (damping s (r / 2))) * j /\
      eval rho (snd (A r c)) = if Nat.eqb r c then (1 + square (damping s (r / 2))) * drive frequency rho else 0.
Proof. exact A_V_spec. Qed.
Theorem c71_linear_system_available : forall s var h f, (exists r, compute_A_and_V s var h f = Ok r) <-> forall l, In l (sv_layers s) -> sb_dyn l <> None.
Proof. exact A_V_ok. Qed.
(** The returned amplitudes are the driven response, divided by 1 + alpha squared. *)
Theorem c71_response : forall inv s H f var value pos phase cache xs, distinct s -> (var = Vp \/ var = Hoe) ->
  linearised_N_spin_diode inv s H f var value pos phase cache = Ok xs ->
  (forall M B, inv (2 * length (sv_layers s))%nat M = Ok B -> inverse (2 * length (sv_layers s)) M B) ->
  cache = "H"%string /\
  exists F y rho, motion s (fun rho => field_at rho field_symbols) true F /\ length xs = (2 * length (sv_layers s))%nat /\
    placed s pos rho /\ field_at rho field_symbols = get_cartesian H /\ rho var = value /\ (forall u, u = Vp \/ u = Hoe -> u <> var -> rho u = 0) /\
    (forall r, (r < 2 * length (sv_layers s))%nat -> nth r xs 0 = fst (y r) * cos phase - snd (y r) * sin phase) /\
    (regular s rho -> responds (fun r => 1 + square (damping s (r / 2))) s F rho var (2 * PI * f) y).
Proof. exact linearised_spec. Qed.
(** With one damping in all layers: multiplied by 1 + alpha squared it is the response of the equation of motion. *)
Theorem c71_response_scale : forall a s F rho var w y, responds (fun _ => a) s F rho var w y -> responds (fun _ => 1) s F rho var w (fun r => (a * fst (y r), a * snd (y r))).
Proof. exact responds_scale. Qed.
(** No answer when the frequency is the cached variable. *)
Theorem c71_frequency_cache_refuted : forall inv s H f var value pos phase, exists e, linearised_N_spin_diode inv s H f var value pos phase "f" = Err e.
Proof.
  intros. unfold linearised_N_spin_diode. destruct (negb _); [eauto|]. cbn [String.eqb Ascii.eqb Bool.eqb]. destruct (compute_A_and_V _ _ _ _) as [[A V]|e]; cbn [rbind]; eauto.
Qed.
Example c71_example : (forall l, In l (sv_layers ex_pair) -> sb_dyn l <> None) /\ steady field_symbols /\ (exists r, compute_A_and_V ex_pair Vp field_symbols (Some 1) = Ok r) /\
  regular ex_pair (fun u => match u with Theta _ => PI / 2 | _ => 0 end) /\
  exists B, inverse 2 (fun r c => if Nat.eqb r c then (0, 2) else (0, 0)) B.
Proof.
  assert (L : forall l, In l (sv_layers ex_pair) -> sb_dyn l <> None) by (intros l [<-|[<-|[]]]; discriminate).
  split; [exact L|]. split; [intros rho; cbn; tauto|]. split; [apply A_V_ok, L|]. split.
  - intros i Hi. cbn in Hi. assert (S0 : soft_sin (PI / 2) <> 0) by (unfold soft_sin; rewrite sin_PI2; assert (0 < / 10 ^ 15) by (apply Rinv_0_lt_compat, pow_lt; lra); lra).
    destruct i as [|[|i]]; [| |lia]; cbn [the_layer ex_pair sv_layers nth ex_film sb_id sb_Ms sb_thickness]; (split; [exact S0|split; lra]).
  - exists (fun r c => if Nat.eqb r c then (0, - / 2) else (0, 0)). intros r c Hr Hc. assert (Cr : r = 0%nat \/ r = 1%nat) by lia. assert (Cc : c = 0%nat \/ c = 1%nat) by lia.
    destruct Cr as [-> | ->], Cc as [-> | ->]; cbn; unfold times; cbn [fst snd]; f_equal; field.
Qed.

(** ** C72 *)
Theorem c72_layer : forall i t Kv Ks Ms Hd Nd dyn l, newLayerSB i t Kv Ks Ms Hd Nd dyn = Ok l <-> (i <= 9)%nat /\
  sb_id l = i /\ sb_thickness l = t /\ sb_Kv l = Kv /\ sb_Ks l = Ks /\ sb_Ms l = Ms /\ sb_Hdmi l = Hd /\ sb_Ndemag l = Nd /\ sb_dyn l = dyn.
Proof. exact new_layer_iff. Qed.
Theorem c72_solver : forall layers J1 J2 H ilD Nd s, newSolver layers J1 J2 H ilD Nd = Ok s <->
  (length layers = length J1 + 1)%nat /\ length J2 = length J1 /\ (forall d, ilD = Some d -> length d = length J1) /\ (forall d, Nd = Some d -> length d = length J1) /\
  Permutation (map sb_id layers) (seq 0 (length layers)) /\
  sv_layers s = layers /\ sv_J1 s = J1 /\ sv_J2 s = J2 /\ sv_H s = H /\
  sv_ilD s = match ilD with None => repeat Zero (length J1) | Some d => map get_cartesian d end /\
  sv_dipole s = match Nd with None => None | Some d => Some (map (fun '(a, b, c) => Ten (get_cartesian a) (get_cartesian b) (get_cartesian c)) d) end.
Proof. exact new_solver_iff. Qed.
Theorem c72_distinct : forall layers J1 J2 H ilD Nd s, newSolver layers J1 J2 H ilD Nd = Ok s -> distinct s.
Proof. exact solver_distinct. Qed.
Theorem c72_one_to_ten : forall layers J1 J2 H ilD Nd s, newSolver layers J1 J2 H ilD Nd = Ok s -> (forall l, In l layers -> (sb_id l <= 9)%nat) -> (1 <= length layers <= 10)%nat.
Proof. exact at_most_ten. Qed.
Theorem c72_neighbours : forall s i cs, (i < length (sv_layers s))%nat -> (length (sv_layers s) = length cs + 1)%nat ->
  get_layer_references s i cs =
  Ok (match i with O => None | S k => nth_error (sv_layers s) k end, nth_error (sv_layers s) (S i), match i with O => 0 | S k => nth k cs 0 end, nth i cs 0).
Proof. exact references_ok. Qed.
Theorem c72_solve : forall (D : Type) dyn num s p max pert noise init fsl fsb (sol : solution D),
  solve dyn num s p max pert noise init fsl fsb = Ok sol <->
  sv_H s <> None /\ length init = (2 * length (sv_layers s))%nat /\ exists eq first, adam_gradient_descent (gradfn s) p max pert noise init = Ok eq /\ nth_error (sv_layers s) 0 = Some first /\
  ((fsb = false /\ sb_dyn first <> None /\ exists d, dyn s eq = Ok d /\ sol = Modes eq d) \/
   ((fsb = true \/ sb_dyn first = None) /\ (length (sv_layers s) = 1%nat \/ fsl = true) /\ exists fs, sol = Frequencies eq fs /\ length fs = length (sv_layers s) /\
      forall i, (i < length fs)%nat -> single_layer_resonance s i eq = Ok (nth i fs 0 * 10 ^ 9)) \/
   ((fsb = true \/ sb_dyn first = None) /\ length (sv_layers s) <> 1%nat /\ fsl = false /\ exists fs, num s eq = Ok fs /\ sol = Frequencies eq fs)).
Proof. exact @solve_iff. Qed.
Example c72_example : newSolver [ex_film 1 2; ex_film 0 1] [5] [6] None None None = Ok (Solver [ex_film 1 2; ex_film 0 1] [5] [6] None [Zero] None) /\
  newSolver [ex_film 0 2; ex_film 2 1] [5] [6] None None None <> Ok (Solver [ex_film 0 2; ex_film 2 1] [5] [6] None [Zero] None) /\
  (exists l, newLayerSB 9 1 (VO 0 0 0) 0 1 None (VO 0 0 0) None = Ok l) /\ get_layer_references ex_pair 1 [5] = Ok (Some (ex_film 0 1), None, 5, 0).
Proof.
  split; [apply new_solver_iff; cbn; repeat split; try discriminate; apply perm_swap|]. split; [intros X; apply new_solver_iff in X; destruct X as (_ & _ & _ & _ & X & _); apply (Permutation_in 2%nat) in X; [cbn in X; lia|cbn; tauto]|]. split; [eexists; reflexivity|reflexivity].
Qed.
(** A single layer along its field: the start is the equilibrium, the answer its frequency. *)
Example c72_solve_example : exists f, 0 < f /\
  solve (D := unit) (fun _ _ => Ok tt) (fun _ _ => Ok []) (one_layer (with_thickness 1 ex_zeeman) (VO (PI / 2) 0 1)) ex_params 100 0 [] [PI / 2; 0] false false = Ok (Frequencies [PI / 2; 0] [f]).
Proof.
  destruct ex_resonance as (g & P & Hg). exists (g / 10 ^ 9). split; [apply Rdiv_lt_0_compat; lra|]. set (s := one_layer (with_thickness 1 ex_zeeman) (VO (PI / 2) 0 1)) in *.
  assert (Dd : distinct s) by (unfold distinct, s; cbn; repeat constructor; intros []).
  apply solve_iff. split; [discriminate|]. split; [reflexivity|]. exists [PI / 2; 0], (with_thickness 1 ex_zeeman). split; [|split; [reflexivity|]].
  - apply (c68_stationary s (VO (PI / 2) 0 1)); try exact Dd; try reflexivity; try (unfold ex_params; cbn [dp_b1 dp_b2 dp_tol]; lra).
    intros k rho Hk Pl. assert (W : exists E, create_energy s None false = Ok E) by (apply energy_ok; right; discriminate). destruct W as [E HE].
    pose proof (energy_none_whole s false E HE) as W. pose proof (energy_none s false E (VO (PI / 2) 0 1) eq_refl HE) as V.
    replace (system_energy s (get_cartesian (VO (PI / 2) 0 1))) with (fun r => eval r E) by (apply functional_extensionality; exact V).
    pose proof (Pl 0%nat ltac:(cbn; lia)) as P0. pose proof (Pl 1%nat ltac:(cbn; lia)) as P1. cbn in P0, P1.
    replace 0 with (eval rho (diff E (angle s k))); [apply diff_partial, whole_defined, W|]. unfold create_energy in HE. cbn in HE. injection HE as HE. rewrite <- HE. cbn in Hk.
    destruct k as [|[|k]]; [| |lia]; cbn; unfold sb_theta, sb_phi in *; cbn in *; rewrite ?P0, ?P1, ?sin_PI2, ?cos_PI2, ?sin_0, ?cos_0; field.
  - right. left. split; [right; reflexivity|]. split; [left; reflexivity|]. exists [g / 10 ^ 9]. split; [reflexivity|]. split; [reflexivity|]. intros i Hi. cbn in Hi. destruct i; [|lia]. cbn [nth]. rewrite Hg. f_equal. field.
Qed.

Print Assumptions c54_hessian.
Print Assumptions c54_hermitian.
Print Assumptions c54_solver_hessian.
Print Assumptions c54_solver_hermitian.
Print Assumptions c54_solver_hessian_available.
Print Assumptions c54_one_layer_roots.
Print Assumptions c55_adam.
Print Assumptions c55_amsgrad.
Print Assumptions c55_adam_answers.
Print Assumptions c55_amsgrad_answers.
Print Assumptions c55_adam_step.
Print Assumptions c55_amsgrad_step.
Print Assumptions c55_adam_reach.
Print Assumptions c55_amsgrad_reach.
Print Assumptions c55_stationary_start.
Print Assumptions c56_volumetric_ignored.
Print Assumptions c56_scan.
Print Assumptions c56_scan_keeps_fields_refuted.
Print Assumptions c67_energy.
Print Assumptions c67_energy_available.
Print Assumptions c67_layer_energy.
Print Assumptions c67_two_layer_sum.
Print Assumptions c68_gradient.
Print Assumptions c68_stationary.
Print Assumptions c69_motion.
Print Assumptions c69_dissipation.
Print Assumptions c69_never_gains.
Print Assumptions c69_torque.
Print Assumptions c69_torque_damped_like_field_refuted.
Print Assumptions c70_resonance.
Print Assumptions c70_thickness.
Print Assumptions c70_thickness_independent_refuted.
Print Assumptions c71_jacobian.
Print Assumptions c71_jacobian_available.
Print Assumptions c71_linear_system.
Print Assumptions c71_linear_system_available.
Print Assumptions c71_response.
Print Assumptions c71_response_scale.
Print Assumptions c71_frequency_cache_refuted.
Print Assumptions c72_layer.
Print Assumptions c72_solver.
Print Assumptions c72_distinct.
Print Assumptions c72_one_to_ten.
Print Assumptions c72_neighbours.
Print Assumptions c72_solve.
