(** Property C101: the two ways of finding resonance frequencies. *)
From Verif Require Import P_Sym P_SB P_SBMotion P_SBTheorems P_Modes P_ModesMotion P_TwoSolvers.
From Coq Require Import Reals Lra Lia FunctionalExtensionality.
Open Scope R_scope.

(** At an undamped equilibrium [f] is a frequency of [dynamic_layer_solve] exactly when [f * ratio k] is a root of the Smit-Beljers matrix. *)
Theorem c101_frequencies eig s eq fs vecs hh k : true_eig eig -> at_equilibrium s hh eq k -> dynamic_layer_solve eig s eq = Ok (fs, vecs) ->
  exists rho, placed s eq rho /\ forall f, In f fs <-> resonant s hh rho (f * ratio k).
Proof. exact (two_solvers eig s eq fs vecs hh k). Qed.
(** Two coupled films along the field *)
Definition pair_film (i : nat) : layerSB := LayerSB i 1 (VO 0 0 0) 0 1 None (VO 0 0 0) (Some (Dynamics 0 0 0)).
Definition pair_stack : solver := Solver [pair_film 0; pair_film 1] [1] [0] (Some (VO (PI / 2) 0 1)) [Zero] None.
Definition flat : list R := [PI / 2; 0; PI / 2; 0].
Lemma tiny : 0 < / 10 ^ 15.
Proof. apply Rinv_0_lt_compat, pow_lt; lra. Qed.
Example c101_frequencies_example : exists hh, at_equilibrium pair_stack hh flat (1 + / 10 ^ 15).
Proof.
  destruct (proj2 (solver_hessian_ok pair_stack) ltac:(discriminate)) as [hh Hh]. exists hh. pose proof tiny as T0.
  split; [unfold distinct; cbn; repeat constructor; intros HI; cbn in HI; lia|]. split; [intros l [<-|[<-|[]]]; reflexivity|]. split; [exact Hh|]. split; [lra|]. intros rho H EH Pl. injection EH as <-.
  assert (W : exists E, create_energy pair_stack None false = Ok E) by (apply energy_ok; right; discriminate). destruct W as [E HE].
  pose proof (energy_none_whole pair_stack false E HE) as W. pose proof (energy_none pair_stack false E (VO (PI / 2) 0 1) eq_refl HE) as V.
  assert (VE : system_energy pair_stack (get_cartesian (VO (PI / 2) 0 1)) = (fun r => eval r E)) by (symmetry; apply functional_extensionality; exact V).
  pose proof (Pl 0%nat ltac:(cbn; lia)) as P0. pose proof (Pl 1%nat ltac:(cbn; lia)) as P1. pose proof (Pl 2%nat ltac:(cbn; lia)) as P2. pose proof (Pl 3%nat ltac:(cbn; lia)) as P3. cbn in P0, P1, P2, P3.
  assert (HE' := HE). unfold create_energy in HE'. cbn in HE'. injection HE' as HE'.
  split; [|split; [|split]].
  - intros i Hi. cbn in Hi. destruct i as [|[|]]; [| |lia]; cbn [the_layer pair_stack sv_layers nth pair_film sb_id sb_Ms sb_thickness]; rewrite ?P0, ?P2; unfold soft_sin; rewrite sin_PI2; repeat split; lra.
  - intros k Hk. rewrite VE. replace 0 with (eval rho (diff E (angle pair_stack k))); [apply diff_partial, whole_defined, W|]. rewrite <- HE'. clear - P0 P1 P2 P3 Hk. cbn in Hk.
    destruct k as [|[|[|[|k]]]]; try lia; cbn; unfold sb_theta, sb_phi in *; cbn in *; rewrite ?P0, ?P1, ?P2, ?P3, ?sin_PI2, ?cos_PI2, ?sin_0, ?cos_0; generalize mu0; clear; intros; field.
  - intros i Hi. cbn in Hi. destruct i as [|[|]]; [| |lia]; cbn; rewrite ?P0, ?P2; unfold soft_sin; rewrite sin_PI2; lra.
  - unfold energy_hessian in Hh. rewrite HE in Hh. cbn [rbind] in Hh. injection Hh as <-.
    assert (VAL : forall r c, (r < 4)%nat -> (c < 4)%nat -> eval rho (fst (hessian_loop (fun i => sb_theta (the_layer pair_stack i)) (fun i => sb_phi (the_layer pair_stack i)) (fun i => sb_correction (the_layer pair_stack i)) E (length (sv_layers pair_stack)) r c)) =
      if Nat.eqb r c then mu0 + 1 else if Nat.eqb (r + 2) c then -1 else if Nat.eqb (c + 2) r then -1 else 0).
    { intros r c Hr Hc. rewrite <- HE'. clear - P0 P1 P2 P3 Hr Hc. destruct r as [|[|[|[|r]]]]; try lia; destruct c as [|[|[|[|c]]]]; try lia; cbn; unfold sb_theta, sb_phi in *; cbn in *; rewrite ?P0, ?P1, ?P2, ?P3, ?sin_PI2, ?cos_PI2, ?sin_0, ?cos_0; generalize mu0; clear; intros; field. }
    intros x (c & Hc & Xc). cbn [length pair_stack sv_layers Nat.mul Nat.add] in Hc.
    assert (EQ : Sigma (2 * length (sv_layers pair_stack)) (fun r => Sigma (2 * length (sv_layers pair_stack)) (fun c => x r * eval rho (fst (hessian_loop (fun i => sb_theta (the_layer pair_stack i)) (fun i => sb_phi (the_layer pair_stack i)) (fun i => sb_correction (the_layer pair_stack i)) E (length (sv_layers pair_stack)) r c)) * x c)) =
       mu0 * (x 0%nat * x 0%nat + x 1%nat * x 1%nat + x 2%nat * x 2%nat + x 3%nat * x 3%nat) + (x 0%nat - x 2%nat) * (x 0%nat - x 2%nat) + (x 1%nat - x 3%nat) * (x 1%nat - x 3%nat)).
    { change (2 * length (sv_layers pair_stack))%nat with 4%nat. cbn [Sigma]. rewrite !VAL by lia. cbn [Nat.eqb Nat.add]. ring. }
    refine (eq_rect_r (fun z => 0 < z) _ EQ). clear - Xc Hc. assert (0 < mu0) by (unfold mu0; lra). assert (0 < x 0%nat * x 0%nat + x 1%nat * x 1%nat + x 2%nat * x 2%nat + x 3%nat * x 3%nat) by (destruct c as [|[|[|[|c]]]]; try lia; nra).
    pose proof (Rmult_lt_0_compat _ _ H H0). pose proof (Rle_0_sqr (x 0%nat - x 2%nat)). pose proof (Rle_0_sqr (x 1%nat - x 3%nat)). unfold Rsqr in *. lra.
Qed.
(** The two lists of frequencies are never the same: the largest Smit-Beljers frequency exceeds all those of [dynamic_layer_solve]. *)
Theorem c101_larger eig s eq fs vecs hh k : true_eig eig -> at_equilibrium s hh eq k -> 1 <= k -> dynamic_layer_solve eig s eq = Ok (fs, vecs) -> fs <> [] ->
  exists rho, placed s eq rho /\ exists f, resonant s hh rho f /\ ~ In f fs /\ forall g, In g fs -> g < f.
Proof. exact (never_equal eig s eq fs vecs hh k). Qed.
(** The two constants of the code differ by 45 to 46 parts in 100000. *)
Theorem c101_ratio : 100045 / 100000 < ratio 1 < 100046 / 100000 /\ forall k, ratio k = k * ratio 1.
Proof. split; [|exact ratio_scale]. pose proof pi_bounds. unfold ratio, gamma, gamma_rad. split; lra. Qed.
(** One film along the field: frequency of the motion *)
Definition lone_stack : solver := Solver [pair_film 0] [] [] (Some (VO (PI / 2) 0 1)) [] None.
Lemma lone_equilibrium : exists hh, at_equilibrium lone_stack hh [PI / 2; 0] (1 + / 10 ^ 15).
Proof.
  destruct (proj2 (solver_hessian_ok lone_stack) ltac:(discriminate)) as [hh Hh]. exists hh. pose proof tiny as T0.
  split; [unfold distinct; cbn; repeat constructor; intros HI; cbn in HI; lia|]. split; [intros l [<-|[]]; reflexivity|]. split; [exact Hh|]. split; [lra|]. intros rho H EH Pl. injection EH as <-.
  assert (W : exists E, create_energy lone_stack None false = Ok E) by (apply energy_ok; right; discriminate). destruct W as [E HE].
  pose proof (energy_none_whole lone_stack false E HE) as W. pose proof (energy_none lone_stack false E (VO (PI / 2) 0 1) eq_refl HE) as V.
  assert (VE : system_energy lone_stack (get_cartesian (VO (PI / 2) 0 1)) = (fun r => eval r E)) by (symmetry; apply functional_extensionality; exact V).
  pose proof (Pl 0%nat ltac:(cbn; lia)) as P0. pose proof (Pl 1%nat ltac:(cbn; lia)) as P1. cbn in P0, P1.
  assert (HE' := HE). unfold create_energy in HE'. cbn in HE'. injection HE' as HE'.
  split; [|split; [|split]].
  - intros i Hi. cbn in Hi. destruct i as [|]; [|lia]; cbn [the_layer lone_stack sv_layers nth pair_film sb_id sb_Ms sb_thickness]; rewrite ?P0; unfold soft_sin; rewrite sin_PI2; repeat split; lra.
  - intros k Hk. rewrite VE. replace 0 with (eval rho (diff E (angle lone_stack k))); [apply diff_partial, whole_defined, W|]. rewrite <- HE'. clear - P0 P1 Hk. cbn in Hk.
    destruct k as [|[|k]]; try lia; cbn; unfold sb_theta, sb_phi in *; cbn in *; rewrite ?P0, ?P1, ?sin_PI2, ?cos_PI2, ?sin_0, ?cos_0; generalize mu0; clear; intros; field.
  - intros i Hi. cbn in Hi. destruct i as [|]; [|lia]; cbn; rewrite ?P0; unfold soft_sin; rewrite sin_PI2; lra.
  - unfold energy_hessian in Hh. rewrite HE in Hh. cbn [rbind] in Hh. injection Hh as <-.
    assert (VAL : forall r c, (r < 2)%nat -> (c < 2)%nat -> eval rho (fst (hessian_loop (fun i => sb_theta (the_layer lone_stack i)) (fun i => sb_phi (the_layer lone_stack i)) (fun i => sb_correction (the_layer lone_stack i)) E (length (sv_layers lone_stack)) r c)) =
      if Nat.eqb r c then mu0 else 0).
    { intros r c Hr Hc. rewrite <- HE'. clear - P0 P1 Hr Hc. destruct r as [|[|r]]; try lia; destruct c as [|[|c]]; try lia; cbn; unfold sb_theta, sb_phi in *; cbn in *; rewrite ?P0, ?P1, ?sin_PI2, ?cos_PI2, ?sin_0, ?cos_0; generalize mu0; clear; intros; field. }
    intros x (c & Hc & Xc). cbn [length lone_stack sv_layers Nat.mul Nat.add] in Hc.
    change (2 * length (sv_layers lone_stack))%nat with 2%nat. cbn [Sigma]. rewrite !VAL by lia. cbn [Nat.eqb]. assert (0 < mu0) by (unfold mu0; lra). assert (0 < x 0%nat * x 0%nat + x 1%nat * x 1%nat) by (destruct c as [|[|c]]; try lia; nra).
    pose proof (Rmult_lt_0_compat _ _ H H0). lra.
Qed.
Lemma lone_second rho r c : placed lone_stack [PI / 2; 0] rho -> (r < 2)%nat -> (c < 2)%nat ->
  partial2 (system_energy lone_stack (get_cartesian (VO (PI / 2) 0 1))) rho (angle lone_stack r) (angle lone_stack c) (if Nat.eqb r c then mu0 else 0).
Proof.
  intros Pl Hr Hc. assert (W : exists E, create_energy lone_stack None false = Ok E) by (apply energy_ok; right; discriminate). destruct W as [E HE].
  pose proof (energy_none_whole lone_stack false E HE) as W. pose proof (energy_none lone_stack false E (VO (PI / 2) 0 1) eq_refl HE) as V.
  assert (VE : system_energy lone_stack (get_cartesian (VO (PI / 2) 0 1)) = (fun r => eval r E)) by (symmetry; apply functional_extensionality; exact V).
  pose proof (Pl 0%nat ltac:(cbn; lia)) as P0. pose proof (Pl 1%nat ltac:(cbn; lia)) as P1. cbn in P0, P1. rewrite VE.
  replace (if Nat.eqb r c then mu0 else 0) with (eval rho (diff (diff E (angle lone_stack r)) (angle lone_stack c))); [apply diff_partial2, W|]. unfold create_energy in HE. cbn in HE. injection HE as HE. rewrite <- HE. clear - P0 P1 Hr Hc.
  destruct r as [|[|r]]; try lia; destruct c as [|[|c]]; try lia; cbn; unfold sb_theta, sb_phi in *; cbn in *; rewrite ?P0, ?P1, ?sin_PI2, ?cos_PI2, ?sin_0, ?cos_0; generalize mu0; clear; intros; field.
Qed.
Definition lone_rate : R := gamma_rad * mu0 / (1 + / 10 ^ 15).
Lemma lone_rate_pos : 0 < lone_rate.
Proof. pose proof tiny. unfold lone_rate. apply Rdiv_lt_0_compat; [unfold gamma_rad, mu0; lra|lra]. Qed.
Lemma list2 (A : Type) (l : list A) d : length l = 2%nat -> l = [nth 0 l d; nth 1 l d].
Proof. destruct l as [|a [|b [|]]]; try discriminate. reflexivity. Qed.
Lemma lone_solve : exists vecs, dynamic_layer_solve turn_eig lone_stack [PI / 2; 0] = Ok ([lone_rate / (2 * PI)], vecs).
Proof.
  set (eig1 := fun a => match turn a with Some r => Ok (turn_answer r) | None => Ok ([], []) end : result (list complex * list (list complex))).
  destruct lone_equilibrium as (hh & HD & HU & Hh & HK & HY). pose proof tiny as T0. pose proof lone_rate_pos as LP.
  destruct (solvable eig1 lone_stack [PI / 2; 0] (VO (PI / 2) 0 1) eq_refl ltac:(intros l [<-|[]]; discriminate) HD eq_refl (fun rho Pl => proj1 (HY rho _ eq_refl Pl))) as (fs & vecs & S1).
  { intros a. unfold eig1. destruct (turn a); [eexists; eexists; split; reflexivity|exists [], []; split; reflexivity]. }
  assert (FS : fs = [lone_rate / (2 * PI)]).
  { destruct (linearised eig1 lone_stack _ fs vecs HD S1) as (H & rho & F & a & vals & rows & EH & _ & PL & HM & LA & RL & PA & EG & ->). injection EH as <-. destruct (HY rho _ eq_refl PL) as (RG & ST & SO & _).
    assert (P0 : rho (angle lone_stack 0) = PI / 2) by (exact (PL 0%nat ltac:(cbn; lia))).
    assert (AV : a = [[0; - lone_rate]; [lone_rate; 0]]).
    { change (length a = 2%nat) in LA. rewrite (list2 _ a [] LA). assert (L0 : length (nth 0 a []) = 2%nat) by (apply RL, nth_In; lia). assert (L1 : length (nth 1 a []) = 2%nat) by (apply RL, nth_In; lia).
      rewrite (list2 _ (nth 0 a []) 0 L0), (list2 _ (nth 1 a []) 0 L1).
      assert (EN : forall c, (c < 2)%nat -> nth c (nth 0 a []) 0 = - (lone_rate / mu0) * (if Nat.eqb 1 c then mu0 else 0) /\ nth c (nth 1 a []) 0 = lone_rate / mu0 * (if Nat.eqb 0 c then mu0 else 0)).
      { intros c Hc. destruct (row_partial lone_stack _ F rho HM HU RG ST 0 c _ _ ltac:(cbn; lia) (lone_second rho 0 c PL ltac:(lia) Hc) (lone_second rho 1 c PL ltac:(lia) Hc)) as [A B].
        assert (WT : weight lone_stack 0 * / soft_sin (rho (angle lone_stack (2 * 0))) = lone_rate / mu0).
        { change (2 * 0)%nat with 0%nat. rewrite P0. unfold soft_sin. rewrite sin_PI2. unfold weight, lone_rate. cbn [the_layer lone_stack sv_layers nth pair_film sb_Ms sb_thickness]. field. unfold mu0; lra. }
        rewrite WT in A, B. split; [exact (partial_det _ _ _ _ _ (PA RG 0%nat c ltac:(cbn; lia) Hc) A)|exact (partial_det _ _ _ _ _ (PA RG 1%nat c ltac:(cbn; lia) Hc) B)]. }
      destruct (EN 0%nat ltac:(lia)) as [-> ->], (EN 1%nat ltac:(lia)) as [-> ->]. cbn [Nat.eqb]. assert (mu0 <> 0) by (unfold mu0; lra). repeat f_equal; field; assumption. }
    unfold eig1 in EG. rewrite (proj2 (turn_some a lone_rate) AV) in EG. injection EG as <- <-. unfold oscillating. cbn [filter snd]. destruct (Rlt_dec 0 lone_rate) as [_|X]; [|contradiction]. destruct (Rlt_dec 0 (- lone_rate)) as [X|_]; [lra|]. reflexivity. }
  subst fs. exists vecs. apply dynamic_iff in S1. destruct S1 as (H & jac & syms & a & vals & rows & EH & J & L & N & G & SE). apply dynamic_iff. exists H, jac, syms, a, vals, rows. repeat (split; [assumption|]). split; [|exact SE].
  unfold eig1, turn_eig in *. destruct (turn a); [exact G|]. injection G as <- <-. apply select_iff in SE. destruct SE as (_ & X & _). discriminate.
Qed.
Example c101_larger_example : exists hh fs vecs, true_eig turn_eig /\ at_equilibrium lone_stack hh [PI / 2; 0] (1 + / 10 ^ 15) /\ 1 <= 1 + / 10 ^ 15 /\ dynamic_layer_solve turn_eig lone_stack [PI / 2; 0] = Ok (fs, vecs) /\ fs <> [].
Proof.
  destruct lone_equilibrium as (hh & HA), lone_solve as (vecs & HS). pose proof tiny. exists hh, [lone_rate / (2 * PI)], vecs. split; [exact turn_true|]. split; [exact HA|]. split; [lra|]. split; [exact HS|discriminate].
Qed.
(** Finding: the frequencies of the two solvers are not the same. *)
Theorem c101_same_refuted : ~ (forall eig s eq fs vecs hh k, true_eig eig -> at_equilibrium s hh eq k -> dynamic_layer_solve eig s eq = Ok (fs, vecs) ->
  exists rho, placed s eq rho /\ forall f, In f fs <-> resonant s hh rho f).
Proof.
  intros C. destruct c101_larger_example as (hh & fs & vecs & TE & HA & HK & HS & NE). destruct (C _ _ _ _ _ _ _ TE HA HS) as (rho & PL & EQ). destruct (c101_frequencies _ _ _ _ _ _ _ TE HA HS) as (rho' & PL' & EQ').
  destruct (Greatest fs NE) as (x & I & M). pose proof (proj1 (EQ x) I) as RX. assert (RX' : resonant lone_stack hh rho x) by exact RX. assert (RX0 : 0 < x) by (destruct RX; assumption).
  destruct (c101_larger _ _ _ _ _ _ _ TE HA HK HS NE) as (rho2 & PL2 & f & RF & NF & GF). apply NF. apply (EQ f).
  destruct RF as [Pf (v & PV & AN)]. split; [exact Pf|]. exists v. split; [exact PV|]. destruct HA as (HD & HU & Hh & _ & HY). destruct (HY rho _ eq_refl PL) as (RG & ST & _), (HY rho2 _ eq_refl PL2) as (RG2 & ST2 & _).
  assert (A0 : forall k, (k < 2)%nat -> rho (angle lone_stack k) = rho2 (angle lone_stack k)) by (intros k Hk; rewrite (PL k Hk), (PL2 k Hk); reflexivity).
  intros r Hr. rewrite <- (AN r Hr). rewrite !csum_sigma.
  assert (EE : forall c, (c < 2)%nat -> eval (upd rho Omega f) (fst (hh r c)) = eval (upd rho2 Omega f) (fst (hh r c)) /\ eval (upd rho Omega f) (snd (hh r c)) = eval (upd rho2 Omega f) (snd (hh r c))).
  { intros c Hc. pose proof (hessian_any lone_stack (VO (PI / 2) 0 1) hh eq_refl Hh rho f r c Hr Hc) as A. pose proof (hessian_any lone_stack (VO (PI / 2) 0 1) hh eq_refl Hh rho2 f r c Hr Hc) as B. split.
    - rewrite (partial2_det _ _ _ _ _ _ A (lone_second rho r c PL Hr Hc)). symmetry. exact (partial2_det _ _ _ _ _ _ B (lone_second rho2 r c PL2 Hr Hc)).
    - unfold energy_hessian in Hh. apply P_Resist.rbind_iff in Hh. destruct Hh as (E & HE & Hh). injection Hh as <-. pose proof (A0 0%nat ltac:(lia)) as Q0. cbn in Q0. cbn in Hr.
      destruct r as [|[|r]]; try lia; destruct c as [|[|c]]; try lia; cbn; unfold upd; cbn; unfold sb_theta; cbn; rewrite ?Q0; reflexivity. }
  f_equal; apply Sigma_eq; intros c Hc; destruct (EE c Hc) as [-> ->]; reflexivity.
Qed.

Print Assumptions c101_frequencies.
Print Assumptions c101_larger.
Print Assumptions c101_ratio.
Print Assumptions c101_same_refuted.
