(** The linearised motion and the Smit-Beljers matrix have the same modes. *)
From Verif Require Import P_Sym P_SB P_SBMotion P_SBTheorems P_Modes P_ModesMotion P_Global.
From Verif Require Export S_TwoSolvers.
From Coq Require Import Reals Lra Lia Psatz Machin.
Open Scope R_scope.

Lemma csum_sigma n f : csum n f = (Sigma n (fun c => fst (f c)), Sigma n (fun c => snd (f c))).
Proof. induction n as [|n IH]; [reflexivity|]. cbn [csum Sigma]. rewrite IH. reflexivity. Qed.
Lemma Sigma_eq n f g : (forall c, (c < n)%nat -> f c = g c) -> Sigma n f = Sigma n g.
Proof. induction n as [|n IH]; intros H; [reflexivity|]. cbn. rewrite IH by (intros c Hc; apply H; lia). rewrite H by lia. reflexivity. Qed.
Lemma Sigma_add n f g : Sigma n (fun c => f c + g c) = Sigma n f + Sigma n g.
Proof. induction n as [|n IH]; cbn; [ring|rewrite IH; ring]. Qed.
Lemma Sigma_mul n a f : Sigma n (fun c => a * f c) = a * Sigma n f.
Proof. induction n as [|n IH]; cbn; [ring|rewrite IH; ring]. Qed.
Lemma Sigma_zero n f : (forall c, (c < n)%nat -> f c = 0) -> Sigma n f = 0.
Proof. induction n as [|n IH]; intros H; [reflexivity|]. cbn. rewrite IH by (intros c Hc; apply H; lia). rewrite H by lia. ring. Qed.
Lemma Sigma_one n f q : (q < n)%nat -> (forall c, (c < n)%nat -> c <> q -> f c = 0) -> Sigma n f = f q.
Proof.
  induction n as [|n IH]; intros Hq H; [lia|]. cbn. destruct (Nat.eq_dec q n) as [->|N].
  - rewrite Sigma_zero by (intros c Hc; apply H; lia). ring.
  - rewrite IH by (try lia; intros c Hc; apply H; lia). rewrite (H n) by lia. ring.
Qed.
Lemma Sigma_swap n m f : Sigma n (fun r => Sigma m (fun c => f r c)) = Sigma m (fun c => Sigma n (fun r => f r c)).
Proof. induction n as [|n IH]; cbn; [symmetry; apply Sigma_zero; reflexivity|]. rewrite IH, Sigma_add. reflexivity. Qed.
(** Sums over angles, in pairs. *)
Lemma Sigma_pairs N f : Sigma (2 * N) f = Sigma N (fun i => f (2 * i)%nat + f (2 * i + 1)%nat).
Proof. induction N as [|N IH]; [reflexivity|]. replace (2 * S N)%nat with (S (S (2 * N))) by lia. cbn [Sigma]. rewrite IH. replace (S (2 * N)) with (2 * N + 1)%nat by lia. ring. Qed.
Lemma parity r : exists i, r = (2 * i)%nat \/ r = (2 * i + 1)%nat.
Proof. induction r as [|r (i & [->| ->])]; [exists 0%nat; lia|exists i; lia|exists (S i); lia]. Qed.

(** ** The linearised motion at an equilibrium *)
Section Linear.
Context (s : solver) (h : cvec) (F : nat -> (symbol -> R) -> R) (rho : symbol -> R).
Context (HM : S_SB.motion s (fun _ => h) false F) (HU : undamped s) (HR : regular s rho) (HS : still s h rho).
Notation n := (2 * length (sv_layers s))%nat.
Definition weight (i : nat) : R := gamma_rad / (sb_Ms (the_layer s i) * sb_thickness (the_layer s i)).
Lemma product_zero (f g : R -> R) x d e : derivable_pt_lim f x d -> derivable_pt_lim g x e -> f x = 0 -> derivable_pt_lim (fun t => f t * g t) x (d * g x).
Proof. intros A B Z. pose proof (derivable_pt_lim_mult f g x d e A B) as C. replace (d * g x) with (d * g x + f x * e) by (rewrite Z; ring). exact C. Qed.
Lemma near_regular u i : (i < length (sv_layers s))%nat -> exists e, 0 < e /\ forall t, Rabs (t - rho u) < e -> soft_sin (upd rho u t (angle s (2 * i))) <> 0.
Proof.
  intros Hi. destruct (HR i Hi) as (A & _ & _). rewrite <- angle_theta in A. unfold upd. destruct (symbol_eq_dec (angle s (2 * i)) u) as [E|E]; [|exists 1; split; [lra|intros; exact A]].
  rewrite E in A. assert (C : continuity_pt soft_sin (rho u)). { unfold soft_sin. apply continuity_pt_plus; [apply continuity_sin|]. apply continuity_pt_const. intros a b. reflexivity. }
  assert (P : 0 < Rabs (soft_sin (rho u))) by (apply Rabs_pos_lt; exact A). destruct (C _ P) as (e & He & K). exists e. split; [exact He|]. intros t Ht Z.
  destruct (Req_dec (rho u) t) as [<-|N]; [contradiction|]. specialize (K t). unfold D_x, no_cond, dist in K. cbn in K. unfold R_dist in K. specialize (K ltac:(auto)). rewrite Z in K. unfold Rminus in K. rewrite Rplus_0_l, Rabs_Ropp in K. lra.
Qed.
Lemma near_all u : exists e, 0 < e /\ forall t, Rabs (t - rho u) < e -> regular s (upd rho u t).
Proof.
  assert (G : forall m, (m <= length (sv_layers s))%nat -> exists e, 0 < e /\ forall t i, Rabs (t - rho u) < e -> (i < m)%nat -> soft_sin (upd rho u t (angle s (2 * i))) <> 0).
  { induction m as [|m IH]; intros Hm; [exists 1; split; [lra|]; intros; lia|]. destruct (IH ltac:(lia)) as (e & He & K), (near_regular u m ltac:(lia)) as (e' & He' & K').
    exists (Rmin e e'). split; [apply Rmin_pos; assumption|]. intros t i Ht Hi. pose proof (Rmin_l e e'). pose proof (Rmin_r e e'). destruct (Nat.eq_dec i m) as [->|N]; [apply K'; lra|apply K; [lra|lia]]. }
  destruct (G _ (le_n _)) as (e & He & K). exists e. split; [exact He|]. intros t Ht i Hi. split; [|exact (proj2 (HR i Hi))]. rewrite <- angle_theta. apply K; assumption.
Qed.
Lemma soft_partial u i : exists d, derivable_pt_lim (fun t => / soft_sin (upd rho u t (angle s (2 * i)))) (rho u) d \/ ~ (i < length (sv_layers s))%nat.
Proof.
  destruct (lt_dec i (length (sv_layers s))) as [Hi|Hi]; [|exists 0; right; exact Hi]. destruct (HR i Hi) as (A & _ & _). rewrite <- angle_theta in A.
  destruct (symbol_eq_dec (angle s (2 * i)) u) as [E|E].
  - exists (- (cos (rho u)) / Rsqr (soft_sin (rho u))). left. assert (D : derivable_pt_lim soft_sin (rho u) (cos (rho u))).
    { unfold soft_sin. replace (cos (rho u)) with (cos (rho u) + 0) by ring. apply (derivable_pt_lim_plus sin (fun _ => / 10 ^ 15)); [apply derivable_pt_lim_sin|apply derivable_pt_lim_const]. }
    rewrite E in A. pose proof (derivable_pt_lim_div (fun _ => 1) soft_sin (rho u) 0 (cos (rho u)) (derivable_pt_lim_const 1 (rho u)) D A) as Q.
    apply deriv_near with (g := div_fct (fun _ => 1) soft_sin).
    + exists 1. split; [lra|]. intros t _. unfold upd, div_fct. rewrite E. destruct (symbol_eq_dec u u); [|congruence]. unfold Rdiv. ring.
    + replace (- cos (rho u) / Rsqr (soft_sin (rho u))) with ((0 * soft_sin (rho u) - cos (rho u) * 1) / Rsqr (soft_sin (rho u))) by (unfold Rdiv; ring). exact Q.
  - exists 0. left. apply deriv_near with (g := fun _ => / soft_sin (rho (angle s (2 * i)))); [|apply derivable_pt_lim_const]. exists 1. split; [lra|]. intros t _. unfold upd. destruct (symbol_eq_dec (angle s (2 * i)) u); [contradiction|reflexivity].
Qed.
Lemma row_partial i c x y : (i < length (sv_layers s))%nat ->
  partial2 (system_energy s h) rho (angle s (2 * i)) (angle s c) x -> partial2 (system_energy s h) rho (angle s (2 * i + 1)) (angle s c) y ->
  partial (F (2 * i)%nat) rho (angle s c) (- (weight i * / soft_sin (rho (angle s (2 * i)))) * y) /\
  partial (F (2 * i + 1)%nat) rho (angle s c) (weight i * / soft_sin (rho (angle s (2 * i))) * x).
Proof.
  intros Hi (gx & Gx & Px) (gy & Gy & Py). destruct (HM i Hi) as (d & ut & up & Hd & HP & Hmv). set (u := angle s c) in *.
  assert (Ed : d = Dynamics 0 0 0). { assert (I : In (the_layer s i) (sv_layers s)) by (unfold the_layer; apply nth_In; exact Hi). rewrite (HU _ I) in Hd. congruence. } subst d.
  assert (Eu : forall r, ut r = gx r) by (intros r; exact (partial_det _ _ _ _ _ (proj1 (HP r)) (Gx r))). assert (Ep : forall r, up r = gy r) by (intros r; exact (partial_det _ _ _ _ _ (proj2 (HP r)) (Gy r))).
  destruct (near_all u) as (e & He & NR). destruct (soft_partial u i) as (q & [Q|Q]); [|contradiction]. destruct (HR i Hi) as (R1 & R2 & R3).
  assert (Rates : forall t, Rabs (t - rho u) < e -> F (2 * i)%nat (upd rho u t) = - weight i * (gy (upd rho u t) * / soft_sin (upd rho u t (angle s (2 * i)))) /\
    F (2 * i + 1)%nat (upd rho u t) = weight i * (gx (upd rho u t) * / soft_sin (upd rho u t (angle s (2 * i))))).
  { intros t Ht. pose proof (NR t Ht) as NR'. destruct (NR' i Hi) as (A & _ & _). rewrite <- angle_theta in A. specialize (Hmv _ NR'). apply moves_iff in Hmv; [|exact A|exact R2].
    destruct Hmv as [-> ->]. unfold theta_rate, phi_rate, weight. cbn [dy_alpha dy_torque_par dy_torque_perp]. rewrite Eu, Ep. split; field; repeat split; try assumption; lra. }
  assert (Z : gx rho = 0 /\ gy rho = 0). { split; [exact (partial_det _ _ _ _ _ (Gx rho) (HS (2 * i)%nat ltac:(lia)))|exact (partial_det _ _ _ _ _ (Gy rho) (HS (2 * i + 1)%nat ltac:(lia)))]. }
  assert (PR : forall (g : (symbol -> R) -> R) x, partial g rho u x -> g rho = 0 -> derivable_pt_lim (fun t => g (upd rho u t) * / soft_sin (upd rho u t (angle s (2 * i)))) (rho u) (x * / soft_sin (rho (angle s (2 * i))))).
  { intros g x' Hg Hz. pose proof (product_zero (fun t => g (upd rho u t)) (fun t => / soft_sin (upd rho u t (angle s (2 * i)))) (rho u) x' q Hg Q) as X. cbv beta in X. rewrite upd_same in X. exact (X Hz). }
  split.
  - apply deriv_near with (g := fun t => - weight i * (gy (upd rho u t) * / soft_sin (upd rho u t (angle s (2 * i))))).
    + exists e. split; [exact He|]. intros t Ht. exact (proj1 (Rates t Ht)).
    + replace (- (weight i * / soft_sin (rho (angle s (2 * i)))) * y) with (- weight i * (y * / soft_sin (rho (angle s (2 * i))))) by ring. apply (derivable_pt_lim_scal _ (- weight i)). apply PR; [exact Py|apply Z].
  - apply deriv_near with (g := fun t => weight i * (gx (upd rho u t) * / soft_sin (upd rho u t (angle s (2 * i))))).
    + exists e. split; [exact He|]. intros t Ht. exact (proj2 (Rates t Ht)).
    + replace (weight i * / soft_sin (rho (angle s (2 * i))) * x) with (weight i * (x * / soft_sin (rho (angle s (2 * i))))) by ring. apply (derivable_pt_lim_scal _ (weight i)). apply PR; [exact Px|apply Z].
Qed.
End Linear.
Lemma angle_not_omega s k : angle s k <> Omega.
Proof. unfold angle, coordinate. destruct (Nat.even k); discriminate. Qed.
Lemma pair_eq (a b : R * R) : a = b <-> fst a = fst b /\ snd a = snd b.
Proof. destruct a, b. cbn. split; [intros E; injection E; auto|intros [-> ->]; reflexivity]. Qed.
Lemma every_pair (N : nat) (P : nat -> Prop) : (forall r, (r < 2 * N)%nat -> P r) <-> forall i, (i < N)%nat -> P (2 * i)%nat /\ P (2 * i + 1)%nat.
Proof. split; [intros H i Hi; split; apply H; lia|]. intros H r Hr. destruct (parity r) as (i & [->| ->]); apply H; lia. Qed.
(** The real systems behind both notions. *)
Lemma mode_row n J a b v r : csum n (fun c => times (J r c, 0) (v c)) = times (a, b) (v r) <->
  Sigma n (fun c => J r c * fst (v c)) = a * fst (v r) - b * snd (v r) /\ Sigma n (fun c => J r c * snd (v c)) = a * snd (v r) + b * fst (v r).
Proof.
  rewrite csum_sigma, pair_eq. cbn [fst snd times]. rewrite (Sigma_eq n (fun c => J r c * fst (v c) - 0 * snd (v c)) (fun c => J r c * fst (v c))) by (intros; ring).
  rewrite (Sigma_eq n (fun c => J r c * snd (v c) + 0 * fst (v c)) (fun c => J r c * snd (v c))) by (intros; ring). tauto.
Qed.
Section Matrix.
Context (N : nat) (th ph : nat -> symbol) (z : nat -> (symbol -> R) -> R) (f : (symbol -> R) -> R) (hh : smatrix) (HB : smit_beljers N th ph z f hh) (rho : symbol -> R).
Notation E r c := (eval rho (fst (hh r c))).
Lemma row_split v r q w : (r < 2 * N)%nat -> (q < 2 * N)%nat -> eval rho (snd (hh r q)) = w -> (forall c, (c < 2 * N)%nat -> c <> q -> eval rho (snd (hh r c)) = 0) ->
  (csum (2 * N) (fun c => times (E r c, eval rho (snd (hh r c))) (v c)) = (0, 0) <->
   Sigma (2 * N) (fun c => E r c * fst (v c)) = w * snd (v q) /\ Sigma (2 * N) (fun c => E r c * snd (v c)) = - w * fst (v q)).
Proof.
  intros Hr Hq Hw Hz. rewrite csum_sigma, pair_eq. cbn [fst snd times].
  rewrite (Sigma_eq _ (fun c => E r c * fst (v c) - eval rho (snd (hh r c)) * snd (v c)) (fun c => E r c * fst (v c) + - 1 * (eval rho (snd (hh r c)) * snd (v c)))) by (intros; ring).
  rewrite !Sigma_add, Sigma_mul. rewrite (Sigma_one (2 * N) (fun c => eval rho (snd (hh r c)) * snd (v c)) q Hq) by (intros c Hc Nc; rewrite Hz by assumption; ring).
  rewrite (Sigma_one (2 * N) (fun c => eval rho (snd (hh r c)) * fst (v c)) q Hq) by (intros c Hc Nc; rewrite Hz by assumption; ring). rewrite Hw. split; intros [A B]; split; lra.
Qed.
Lemma rows_split v i : (i < N)%nat ->
  (csum (2 * N) (fun c => times (E (2 * i)%nat c, eval rho (snd (hh (2 * i)%nat c))) (v c)) = (0, 0) <->
   Sigma (2 * N) (fun c => E (2 * i)%nat c * fst (v c)) = - z i rho * snd (v (2 * i + 1)%nat) /\ Sigma (2 * N) (fun c => E (2 * i)%nat c * snd (v c)) = z i rho * fst (v (2 * i + 1)%nat)) /\
  (csum (2 * N) (fun c => times (E (2 * i + 1)%nat c, eval rho (snd (hh (2 * i + 1)%nat c))) (v c)) = (0, 0) <->
   Sigma (2 * N) (fun c => E (2 * i + 1)%nat c * fst (v c)) = z i rho * snd (v (2 * i)%nat) /\ Sigma (2 * N) (fun c => E (2 * i + 1)%nat c * snd (v c)) = - z i rho * fst (v (2 * i)%nat)).
Proof.
  intros Hi. split.
  - rewrite (row_split v (2 * i) (2 * i + 1) (- z i rho)); [rewrite Ropp_involutive; reflexivity|lia|lia| |].
    + destruct (HB (2 * i)%nat (2 * i + 1)%nat rho ltac:(lia) ltac:(lia)) as (_ & _ & X & _). exact (X i eq_refl eq_refl).
    + intros c Hc Nc. destruct (HB (2 * i)%nat c rho ltac:(lia) Hc) as (_ & _ & _ & X). apply X. intros j. lia.
  - apply row_split; [lia|lia| |].
    + destruct (HB (2 * i + 1)%nat (2 * i)%nat rho ltac:(lia) ltac:(lia)) as (_ & X & _). exact (X i eq_refl eq_refl).
    + intros c Hc Nc. destruct (HB (2 * i + 1)%nat c rho ltac:(lia) Hc) as (_ & _ & _ & X). apply X. intros j. lia.
Qed.
End Matrix.

Section Same.
Context (s : solver) (H : vectorObj) (hh : smatrix) (HH : sv_H s = Some H) (Hh : energy_hessian s = Ok hh).
Context (F : nat -> (symbol -> R) -> R) (rho : symbol -> R) (J : nat -> nat -> R).
Context (HM : S_SB.motion s (fun _ => get_cartesian H) false F) (HU : undamped s) (HR : regular s rho) (HS : still s (get_cartesian H) rho).
Context (HJ : forall r c, (r < 2 * length (sv_layers s))%nat -> (c < 2 * length (sv_layers s))%nat -> partial (F r) rho (angle s c) (J r c)).
Notation N := (length (sv_layers s)).
Notation n := (2 * length (sv_layers s))%nat.
Definition correction (i : nat) (rho : symbol -> R) : R := rho Omega / gamma * sb_Ms (the_layer s i) * sin (rho (Theta (sb_id (the_layer s i)))) * sb_thickness (the_layer s i).
Lemma beljers : smit_beljers N (fun i => Theta (sb_id (the_layer s i))) (fun i => Phi (sb_id (the_layer s i))) correction (system_energy s (get_cartesian H)) hh.
Proof. destruct (energy_hessian_iff s hh Hh) as (v & Hv & B). assert (v = H) by congruence. subst v. exact B. Qed.
Lemma hessian_any w r c : (r < n)%nat -> (c < n)%nat -> partial2 (system_energy s (get_cartesian H)) rho (angle s r) (angle s c) (eval (upd rho Omega w) (fst (hh r c))).
Proof.
  intros Hr Hc. destruct (beljers r c (upd rho Omega w) Hr Hc) as (P & _). fold (angle s r) in P. fold (angle s c) in P.
  assert (UA : forall k, upd rho Omega w (angle s k) = rho (angle s k)) by (intros k; unfold upd; destruct (symbol_eq_dec (angle s k) Omega) as [E|E]; [destruct (angle_not_omega s k E)|reflexivity]).
  apply (partial2_local s (get_cartesian H) (upd rho Omega w) rho); [intros k _; apply UA|apply UA|apply UA|exact P].
Qed.
Lemma entries w i c : (i < N)%nat -> (c < n)%nat ->
  J (2 * i)%nat c = - (weight s i * / soft_sin (rho (angle s (2 * i)))) * eval (upd rho Omega w) (fst (hh (2 * i + 1)%nat c)) /\
  J (2 * i + 1)%nat c = weight s i * / soft_sin (rho (angle s (2 * i))) * eval (upd rho Omega w) (fst (hh (2 * i)%nat c)).
Proof.
  intros Hi Hc. destruct (row_partial s (get_cartesian H) F rho HM HU HR HS i c _ _ Hi (hessian_any w (2 * i) c ltac:(lia) Hc) (hessian_any w (2 * i + 1) c ltac:(lia) Hc)) as [A B].
  split; [exact (partial_det _ _ _ _ _ (HJ (2 * i)%nat c ltac:(lia) Hc) A)|exact (partial_det _ _ _ _ _ (HJ (2 * i + 1)%nat c ltac:(lia) Hc) B)].
Qed.
Lemma soft_k k : softened s k rho -> (0 < N)%nat -> k <> 0.
Proof. intros HK HN ->. destruct (HR 0%nat HN) as (A & _). rewrite <- angle_theta, (HK 0%nat HN) in A. lra. Qed.
Lemma weight_soft i : (i < N)%nat -> weight s i * / soft_sin (rho (angle s (2 * i))) <> 0.
Proof.
  intros Hi. destruct (HR i Hi) as (R1 & R2 & R3). rewrite <- angle_theta in R1. unfold weight, Rdiv. apply Rmult_integral_contrapositive_currified; [|apply Rinv_neq_0_compat; exact R1].
  apply Rmult_integral_contrapositive_currified; [unfold gamma_rad; lra|]. apply Rinv_neq_0_compat. apply Rmult_integral_contrapositive_currified; assumption.
Qed.
Lemma pair_rows W z A B C D x0 y0 x1 y1 : W <> 0 ->
  ((- W * C = 0 * x0 - W * z * y0 /\ - W * D = 0 * y0 + W * z * x0) /\ (W * A = 0 * x1 - W * z * y1 /\ W * B = 0 * y1 + W * z * x1)) <->
  ((A = - z * y1 /\ B = z * x1) /\ (C = z * y0 /\ D = - z * x0)).
Proof. intros HW. split; [|intros ((-> & ->) & -> & ->); repeat split; ring]. intros ((E1 & E2) & E3 & E4). repeat split; apply (Rmult_eq_reg_l W _ _); try exact HW; lra. Qed.
Lemma same_modes k w v : softened s k rho -> (mode n J (0, w * gamma_rad / (gamma * k)) v <-> annihilated n hh (upd rho Omega w) v).
Proof.
  intros HK. unfold mode, annihilated. rewrite !every_pair. enough (G : forall i, (i < N)%nat -> 
    ((csum n (fun c => times (J (2 * i)%nat c, 0) (v c)) = times (0, w * gamma_rad / (gamma * k)) (v (2 * i)%nat) /\ csum n (fun c => times (J (2 * i + 1)%nat c, 0) (v c)) = times (0, w * gamma_rad / (gamma * k)) (v (2 * i + 1)%nat)) <->
     (csum n (fun c => times (eval (upd rho Omega w) (fst (hh (2 * i)%nat c)), eval (upd rho Omega w) (snd (hh (2 * i)%nat c))) (v c)) = (0, 0) /\
      csum n (fun c => times (eval (upd rho Omega w) (fst (hh (2 * i + 1)%nat c)), eval (upd rho Omega w) (snd (hh (2 * i + 1)%nat c))) (v c)) = (0, 0)))) by (split; intros X i Hi; apply (G i Hi); exact (X i Hi)).
  intros i Hi. pose proof (soft_k k HK ltac:(lia)) as K0. destruct (HR i Hi) as (R1 & R2 & R3). rewrite <- angle_theta in R1. pose proof (HK i Hi) as HKi.
  assert (SN : sin (rho (angle s (2 * i))) <> 0) by (intros X; rewrite X in HKi; apply R1; lra).
  assert (ZZ : correction i (upd rho Omega w) = w / gamma * sb_Ms (the_layer s i) * sin (rho (angle s (2 * i))) * sb_thickness (the_layer s i)) by (unfold correction; rewrite angle_theta; unfold upd; destruct (symbol_eq_dec Omega Omega); [|congruence]; destruct (symbol_eq_dec (Theta (sb_id (the_layer s i))) Omega); [discriminate|reflexivity]).
  destruct (rows_split N _ _ _ _ hh beljers (upd rho Omega w) v i Hi) as [E1 E2]. rewrite E1, E2. clear E1 E2. rewrite !mode_row.
  set (W := weight s i * / soft_sin (rho (angle s (2 * i)))).
  rewrite (Sigma_eq n (fun c => J (2 * i)%nat c * fst (v c)) (fun c => - W * (eval (upd rho Omega w) (fst (hh (2 * i + 1)%nat c)) * fst (v c)))) by (intros c Hc; rewrite (proj1 (entries w i c Hi Hc)); unfold W; ring).
  rewrite (Sigma_eq n (fun c => J (2 * i)%nat c * snd (v c)) (fun c => - W * (eval (upd rho Omega w) (fst (hh (2 * i + 1)%nat c)) * snd (v c)))) by (intros c Hc; rewrite (proj1 (entries w i c Hi Hc)); unfold W; ring).
  rewrite (Sigma_eq n (fun c => J (2 * i + 1)%nat c * fst (v c)) (fun c => W * (eval (upd rho Omega w) (fst (hh (2 * i)%nat c)) * fst (v c)))) by (intros c Hc; rewrite (proj2 (entries w i c Hi Hc)); unfold W; ring).
  rewrite (Sigma_eq n (fun c => J (2 * i + 1)%nat c * snd (v c)) (fun c => W * (eval (upd rho Omega w) (fst (hh (2 * i)%nat c)) * snd (v c)))) by (intros c Hc; rewrite (proj2 (entries w i c Hi Hc)); unfold W; ring).
  rewrite !Sigma_mul. assert (G0 : gamma_rad <> 0) by (unfold gamma_rad; lra). assert (G1 : gamma <> 0) by (unfold gamma; lra).
  assert (W0 : W <> 0) by (exact (weight_soft i Hi)).
  replace (w * gamma_rad / (gamma * k)) with (W * correction i (upd rho Omega w)) by (rewrite ZZ; unfold W, weight; rewrite HKi; field; auto). exact (pair_rows W _ _ _ _ _ _ _ _ _ W0).
Qed.
(** At a minimum all modes oscillate. *)
Lemma quadratic_sym x y (E : nat -> nat -> R) m : (forall r c, (r < m)%nat -> (c < m)%nat -> E r c = E c r) -> Sigma m (fun r => x r * Sigma m (fun c => E r c * y c)) = Sigma m (fun r => y r * Sigma m (fun c => E r c * x c)).
Proof.
  intros HE. transitivity (Sigma m (fun r => Sigma m (fun c => x r * (E r c * y c)))); [apply Sigma_eq; intros; symmetry; apply Sigma_mul|].
  rewrite Sigma_swap. apply Sigma_eq. intros c Hc. rewrite <- Sigma_mul. apply Sigma_eq. intros r Hr. rewrite (HE c r Hc Hr). ring.
Qed.
Lemma modes_oscillate l v : definite n (fun r c => eval rho (fst (hh r c))) -> mode n J l v -> present n v -> fst l = 0 /\ snd l <> 0.
Proof.
  intros HP HMo HV. destruct l as [a b]. set (E := fun r c => eval rho (fst (hh r c))). set (x := fun c => fst (v c)). set (y := fun c => snd (v c)).
  assert (UR : upd rho Omega (rho Omega) = rho) by apply upd_same. assert (SY : forall r c, (r < n)%nat -> (c < n)%nat -> E r c = E c r) by (intros r c Hr Hc; exact (proj1 (solver_hermitian s hh Hh r c rho Hr Hc))).
  set (W := fun i => weight s i * / soft_sin (rho (angle s (2 * i)))). assert (W0 : forall i, (i < N)%nat -> W i <> 0).
  { intros i Hi. exact (weight_soft i Hi). }
  set (SX := fun r => Sigma n (fun c => E r c * x c)). set (SY' := fun r => Sigma n (fun c => E r c * y c)).
  assert (ROW : forall i, (i < N)%nat -> SX (2 * i + 1)%nat = - (/ W i) * (a * x (2 * i)%nat - b * y (2 * i)%nat) /\ SY' (2 * i + 1)%nat = - (/ W i) * (a * y (2 * i)%nat + b * x (2 * i)%nat) /\
     SX (2 * i)%nat = / W i * (a * x (2 * i + 1)%nat - b * y (2 * i + 1)%nat) /\ SY' (2 * i)%nat = / W i * (a * y (2 * i + 1)%nat + b * x (2 * i + 1)%nat)).
  { intros i Hi. pose proof (proj1 (mode_row n J a b v (2 * i)%nat) (HMo (2 * i)%nat ltac:(lia))) as [A1 A2]. pose proof (proj1 (mode_row n J a b v (2 * i + 1)%nat) (HMo (2 * i + 1)%nat ltac:(lia))) as [B1 B2].
    rewrite (Sigma_eq n _ (fun c => - W i * (E (2 * i + 1)%nat c * x c))) in A1 by (intros c Hc; rewrite (proj1 (entries (rho Omega) i c Hi Hc)), UR; unfold W, E, x; ring).
    rewrite (Sigma_eq n _ (fun c => - W i * (E (2 * i + 1)%nat c * y c))) in A2 by (intros c Hc; rewrite (proj1 (entries (rho Omega) i c Hi Hc)), UR; unfold W, E, y; ring).
    rewrite (Sigma_eq n _ (fun c => W i * (E (2 * i)%nat c * x c))) in B1 by (intros c Hc; rewrite (proj2 (entries (rho Omega) i c Hi Hc)), UR; unfold W, E, x; ring).
    rewrite (Sigma_eq n _ (fun c => W i * (E (2 * i)%nat c * y c))) in B2 by (intros c Hc; rewrite (proj2 (entries (rho Omega) i c Hi Hc)), UR; unfold W, E, y; ring).
    rewrite Sigma_mul in A1, A2, B1, B2. fold (SX (2 * i + 1)%nat) in A1. fold (SY' (2 * i + 1)%nat) in A2. fold (SX (2 * i)%nat) in B1. fold (SY' (2 * i)%nat) in B2. specialize (W0 i Hi).
    fold (x (2 * i)%nat) (y (2 * i)%nat) in A1, A2. fold (x (2 * i + 1)%nat) (y (2 * i + 1)%nat) in B1, B2.
    repeat split; apply (Rmult_eq_reg_l (W i)); try exact W0; [transitivity (- (a * x (2 * i)%nat - b * y (2 * i)%nat)); [lra|field; exact W0]|transitivity (- (a * y (2 * i)%nat + b * x (2 * i)%nat)); [lra|field; exact W0]|rewrite B1; field; exact W0|rewrite B2; field; exact W0]. }
  (* the area swept *)
  set (K := Sigma N (fun i => / W i * (x (2 * i)%nat * y (2 * i + 1)%nat - x (2 * i + 1)%nat * y (2 * i)%nat))).
  assert (Q1 : Sigma n (fun r => x r * SX r) + Sigma n (fun r => y r * SY' r) = - 2 * b * K).
  { rewrite !Sigma_pairs. unfold K. rewrite <- Sigma_add, <- Sigma_mul. apply Sigma_eq. intros i Hi. destruct (ROW i Hi) as (E1 & E2 & E3 & E4). rewrite E1, E2, E3, E4. ring. }
  assert (Q2 : Sigma n (fun r => x r * SY' r) - Sigma n (fun r => y r * SX r) = 2 * a * K).
  { rewrite !Sigma_pairs. unfold K. unfold Rminus. rewrite <- Sigma_mul. replace (- Sigma N (fun i => y (2 * i)%nat * SX (2 * i)%nat + y (2 * i + 1)%nat * SX (2 * i + 1)%nat)) with (Sigma N (fun i => -1 * (y (2 * i)%nat * SX (2 * i)%nat + y (2 * i + 1)%nat * SX (2 * i + 1)%nat))) by (rewrite Sigma_mul; ring).
    rewrite <- Sigma_add. apply Sigma_eq. intros i Hi. destruct (ROW i Hi) as (E1 & E2 & E3 & E4). rewrite E1, E2, E3, E4. ring. }
  assert (Q3 : Sigma n (fun r => x r * SY' r) = Sigma n (fun r => y r * SX r)) by (apply quadratic_sym; exact SY).
  assert (QF : forall u, Sigma n (fun r => Sigma n (fun c => u r * E r c * u c)) = Sigma n (fun r => u r * Sigma n (fun c => E r c * u c))) by (intros u; apply Sigma_eq; intros r Hr; rewrite <- Sigma_mul; apply Sigma_eq; intros; ring).
  assert (NN : forall u, 0 <= Sigma n (fun r => u r * Sigma n (fun c => E r c * u c)) /\ ((exists c, (c < n)%nat /\ u c <> 0) -> 0 < Sigma n (fun r => u r * Sigma n (fun c => E r c * u c)))).
  { intros u. rewrite <- QF. split; [|apply HP]. destruct (Classical_Prop.classic (exists c, (c < n)%nat /\ u c <> 0)) as [X|X]; [left; apply HP; exact X|].
    right. symmetry. apply Sigma_zero. intros r Hr. apply Sigma_zero. intros c Hc. assert (Z : u c = 0) by (destruct (Req_dec (u c) 0); [assumption|destruct X; eauto]). rewrite Z. ring. }
  assert (POS : 0 < Sigma n (fun r => x r * SX r) + Sigma n (fun r => y r * SY' r)).
  { destruct (NN x) as [X1 X2], (NN y) as [Y1 Y2]. fold SX in X1, X2. fold SY' in Y1, Y2. destruct HV as (c & Hc & Hv). destruct (Req_dec (x c) 0) as [Zx|Zx].
    - assert (Zy : y c <> 0) by (intros Zy; apply Hv; destruct (v c) as [p q] eqn:V; unfold x, y in Zx, Zy; rewrite V in Zx, Zy; cbn in Zx, Zy; subst; reflexivity). specialize (Y2 (ex_intro _ c (conj Hc Zy))). change (fun r => x r * SX r) with (fun r => x r * Sigma n (fun c0 => E r c0 * x c0)). change (fun r => y r * SY' r) with (fun r => y r * Sigma n (fun c0 => E r c0 * y c0)). lra.
    - specialize (X2 (ex_intro _ c (conj Hc Zx))). change (fun r => x r * SX r) with (fun r => x r * Sigma n (fun c0 => E r c0 * x c0)). change (fun r => y r * SY' r) with (fun r => y r * Sigma n (fun c0 => E r c0 * y c0)). lra. }
  rewrite Q1 in POS. assert (BK : b * K <> 0) by (intros Z; replace (-2 * b * K) with (-2 * (b * K)) in POS by ring; rewrite Z in POS; lra).
  cbn [fst snd]. split; [|intros Z; apply BK; rewrite Z; ring]. assert (AK : a * K = 0) by lra. apply Rmult_integral in AK. destruct AK as [Z|Z]; [exact Z|exfalso; apply BK; rewrite Z; ring].
Qed.
End Same.

(** ** Eigenvectors given as lists *)
Lemma Sigma_first n f : Sigma (S n) f = f 0%nat + Sigma n (fun c => f (S c)).
Proof. induction n as [|n IH]; [cbn; ring|]. cbn [Sigma] in *. rewrite IH. ring. Qed.
Lemma cdot_csum : forall row v, length row = length v -> cdot row v = csum (length v) (fun c => times (nth c row 0, 0) (nth c v (0, 0))).
Proof.
  intros row v. revert row. induction v as [|z v IH]; intros [|x row] L; try discriminate; [reflexivity|]. injection L as L. unfold cdot in *. cbn [combine fold_right fst snd]. rewrite IH by exact L.
  rewrite !csum_sigma. cbn [fst snd length]. rewrite !Sigma_first. cbn [nth]. unfold times. cbn [fst snd]. f_equal; ring.
Qed.
Definition entry (a : list (list R)) (r c : nat) : R := nth c (nth r a []) 0.
Lemma eigenvector_mode a l v : (forall row, In row a -> length row = length a) -> eigenvector a l v -> mode (length a) (entry a) l (fun c => nth c v (0, 0)) /\ present (length a) (fun c => nth c v (0, 0)).
Proof.
  intros HA (L & (z & Iz & Nz) & E). split.
  - intros r Hr. assert (I : In (nth r a []) a) by (apply nth_In; exact Hr). pose proof (cdot_csum (nth r a []) v ltac:(rewrite (HA _ I), L; reflexivity)) as C. rewrite L in C. unfold entry. rewrite <- C.
    assert (X : nth r (map (fun row => cdot row v) a) (cdot [] v) = nth r (map (times l) v) (times l (0, 0))) by (rewrite <- E; apply nth_indep; rewrite map_length; exact Hr).
    rewrite (map_nth (fun row => cdot row v)), (map_nth (times l)) in X. exact X.
  - apply In_nth with (d := (0, 0)) in Iz. destruct Iz as (c & Hc & <-). exists c. split; [rewrite <- L; exact Hc|exact Nz].
Qed.
Lemma mode_eigenvector a l v : (forall row, In row a -> length row = length a) -> mode (length a) (entry a) l v -> present (length a) v -> eigenvector a l (map v (seq 0 (length a))).
Proof.
  intros HA HM (c & Hc & Nc). assert (L : length (map v (seq 0 (length a))) = length a) by (rewrite map_length, seq_length; reflexivity).
  assert (NT : forall k, (k < length a)%nat -> nth k (map v (seq 0 (length a))) (0, 0) = v k) by (intros k Hk; rewrite (nth_indep _ _ (v 0%nat)) by (rewrite L; exact Hk); rewrite map_nth, seq_nth by exact Hk; reflexivity).
  split; [exact L|]. split; [exists (v c); split; [rewrite <- (NT c Hc); apply nth_In; rewrite L; exact Hc|exact Nc]|].
  apply nth_ext with (d := cdot [] (map v (seq 0 (length a)))) (d' := times l (0, 0)); [rewrite !map_length, seq_length; reflexivity|]. intros r Hr. rewrite map_length in Hr.
  rewrite (map_nth (fun row => cdot row _)), (map_nth (times l)), NT by exact Hr. rewrite cdot_csum by (rewrite L; apply HA, nth_In; exact Hr). rewrite L. rewrite <- (HM r Hr). rewrite !csum_sigma. cbn [fst snd].
  f_equal; apply Sigma_eq; intros k Hk; rewrite NT by exact Hk; reflexivity.
Qed.
(** ** Frequencies of the two solvers *)
Lemma mode_ext n J J' l v : (forall r c, (r < n)%nat -> (c < n)%nat -> J r c = J' r c) -> mode n J l v -> mode n J' l v.
Proof. intros E M r Hr. rewrite <- (M r Hr). rewrite !csum_sigma. f_equal; apply Sigma_eq; intros c Hc; rewrite (E r c Hr Hc); reflexivity. Qed.
Lemma two_solvers eig s eq fs vecs hh k : true_eig eig -> at_equilibrium s hh eq k -> dynamic_layer_solve eig s eq = Ok (fs, vecs) ->
  exists rho, placed s eq rho /\ forall f, In f fs <-> resonant s hh rho (f * ratio k).
Proof.
  intros HE (HD & HU & Hh & HK & HYP) HS. destruct (linearised eig s eq fs vecs HD HS) as (H & rho & F & a & vals & rows & EH & _ & PL & HM & LA & RL & PA & EG & ->). exists rho. split; [exact PL|].
  destruct (HYP rho H EH PL) as (RG & ST & SO & DE). assert (HA : forall row, In row a -> length row = length a) by (intros row I; rewrite LA; apply RL; exact I).
  assert (HJ : forall r c, (r < 2 * length (sv_layers s))%nat -> (c < 2 * length (sv_layers s))%nat -> partial (F r) rho (angle s c) (entry a r c)) by (intros r c Hr Hc; exact (PA RG r c Hr Hc)).
  pose proof (same_modes s H hh EH Hh F rho (entry a) HM HU RG ST HJ k) as SM. pose proof PI_RGT_0 as PI0.
  assert (FR : forall f, f * ratio k * gamma_rad / (gamma * k) = 2 * PI * f) by (intros f; unfold ratio; field; unfold gamma, gamma_rad; lra).
  assert (R0 : 0 < ratio k) by (assert (0 < PI * k) by (apply Rmult_lt_0_compat; assumption); unfold ratio, gamma, gamma_rad; apply Rdiv_lt_0_compat; lra).
  intros f. unfold resonant. rewrite in_map_iff. split.
  - intros ([l1 l2] & <- & I). unfold oscillating in I. apply filter_In in I. destruct I as [I P]. cbn [snd] in *. destruct (Rlt_dec 0 l2) as [P2|]; [|discriminate]. split; [apply Rmult_lt_0_compat; [apply Rdiv_lt_0_compat; lra|exact R0]|].
    apply (HE a vals rows EG) in I. destruct I as [v V]. destruct (eigenvector_mode a _ v HA V) as [M PV]. rewrite LA in M, PV.
    destruct (modes_oscillate s H hh EH Hh F rho (entry a) HM HU RG ST HJ (l1, l2) _ DE M PV) as [Z _]. cbn in Z. subst l1. exists (fun c => nth c v (0, 0)). split; [exact PV|]. apply (SM _ _ SO). rewrite FR.
    replace (2 * PI * (l2 / (2 * PI))) with l2 by (field; lra). exact M.
  - intros (Pf' & v & PV & AN). assert (Pf : 0 < f) by (apply Rmult_lt_reg_r with (ratio k); [exact R0|lra]). apply (SM _ _ SO) in AN. rewrite FR in AN. exists (0, 2 * PI * f). split; [cbn [snd]; field; lra|]. unfold oscillating. apply filter_In. split.
    + apply (HE a vals rows EG). exists (map v (seq 0 (length a))). apply mode_eigenvector; [exact HA|rewrite LA; exact AN|rewrite LA; exact PV].
    + cbn [snd]. destruct (Rlt_dec 0 (2 * PI * f)) as [|X]; [reflexivity|exfalso; apply X; apply Rmult_lt_0_compat; lra].
Qed.

(** ** The two constants *)
Lemma pi_bounds : 314159 / 100000 < PI < 31416 / 10000.
Proof.
  pose proof (PI_2_3_7_ineq 4) as [A B]. unfold sum_f_R0, tg_alt, PI_2_3_7_tg, Ratan_seq in *. cbn [Nat.mul Nat.add INR pow] in *. split; lra.
Qed.
Lemma ratio_bounds : 10004 / 10000 < ratio 1 < 10005 / 10000.
Proof. pose proof pi_bounds. unfold ratio, gamma, gamma_rad. lra. Qed.
Lemma ratio_scale k : ratio k = k * ratio 1.
Proof. unfold ratio, gamma_rad. field. Qed.
Lemma Greatest : forall l : list R, l <> [] -> exists x, In x l /\ forall y, In y l -> y <= x.
Proof.
  induction l as [|a l IH]; intros N; [contradiction|]. destruct l as [|b l]; [exists a; split; [left; reflexivity|intros y [<-|[]]; lra]|].
  destruct (IH ltac:(discriminate)) as (x & I & M). destruct (Rle_dec a x) as [L|L]; [exists x; split; [right; exact I|intros y [<-|J]; [exact L|apply M, J]]|].
  exists a. split; [left; reflexivity|]. intros y [<-|J]; [lra|]. specialize (M y J). lra.
Qed.
Lemma never_equal eig s eq fs vecs hh k : true_eig eig -> at_equilibrium s hh eq k -> 1 <= k -> dynamic_layer_solve eig s eq = Ok (fs, vecs) -> fs <> [] ->
  exists rho, placed s eq rho /\ exists f, resonant s hh rho f /\ ~ In f fs /\ forall g, In g fs -> g < f.
Proof.
  intros HE HA HK HS NE. destruct (two_solvers eig s eq fs vecs hh k HE HA HS) as (rho & PL & EQ). exists rho. split; [exact PL|]. destruct (Greatest fs NE) as (x & I & M). exists (x * ratio k).
  pose proof (proj1 (EQ x) I) as RX. destruct RX as [P0 RX]. pose proof ratio_bounds as RB. rewrite ratio_scale in *. assert (1 < k * ratio 1) by nra. assert (0 < x) by (apply Rmult_lt_reg_r with (k * ratio 1); lra).
  assert (B : forall g, In g fs -> g < x * (k * ratio 1)) by (intros g G; specialize (M g G); nra). split; [split; assumption|]. split; [|exact B]. intros G. specialize (B _ G). lra.
Qed.

(** ** One film: the matrix is a rotation, its eigenvalues are known *)
Definition turn (a : list (list R)) : option R :=
  match a with
  | [[p; q]; [r; t]] => if Req_EM_T p 0 then if Req_EM_T t 0 then if Req_EM_T q (- r) then Some r else None else None else None
  | _ => None
  end.
Definition turn_answer (r : R) : list complex * list (list complex) := ([(0, r); (0, - r)], [[(1, 0); (1, 0)]; [(0, -1); (0, 1)]]).
Definition turn_eig (a : list (list R)) : result (list complex * list (list complex)) :=
  match turn a with Some r => Ok (turn_answer r) | None => Err NonFinite end.
Lemma turn_some a r : turn a = Some r <-> a = [[0; - r]; [r; 0]].
Proof.
  split.
  - unfold turn. destruct a as [|[|p [|q [|]]] [|[|r' [|t [|]]] [|]]]; try discriminate. destruct (Req_EM_T p 0) as [->|]; [|discriminate]. destruct (Req_EM_T t 0) as [->|]; [|discriminate]. destruct (Req_EM_T q (- r')) as [->|]; [|discriminate]. congruence.
  - intros ->. cbn. destruct (Req_EM_T 0 0) as [_|X]; [|lra]. destruct (Req_EM_T (- r) (- r)) as [_|X]; [reflexivity|lra].
Qed.
Lemma turn_true : true_eig turn_eig.
Proof.
  intros a vals rows E. unfold turn_eig in E. destruct (turn a) as [r|] eqn:T; [|discriminate]. apply turn_some in T. subst a. injection E as <- <-. intros [x y]. unfold eigenvector. split.
  - intros [I|[I|[]]]; injection I as <- <-; [exists [(1, 0); (0, -1)]|exists [(1, 0); (0, 1)]]; (split; [reflexivity|]); (split; [exists (1, 0); split; [left; reflexivity|intros X; injection X; lra]|]); cbn; unfold times; cbn; repeat (f_equal; try ring).
  - intros (v & L & (z & Iz & Nz) & M). destruct v as [|[v1 v2] [|[w1 w2] [|]]]; try discriminate. cbn in M. unfold times in M. cbn in M. injection M as A1 A2 B1 B2. clear L.
    assert (NZ : 0 < v1 * v1 + v2 * v2 + w1 * w1 + w2 * w2).
    { destruct Iz as [<-|[<-|[]]]; match goal with H : (?p, ?q) <> (0, 0) |- _ => assert (p <> 0 \/ q <> 0) as [?|?] by (destruct (Req_dec p 0) as [->|]; [right; intros ->; apply H; reflexivity|left; assumption]) end; nra. }
    pose proof (f_equal (Rmult x) A1) as X1. pose proof (f_equal (Rmult x) A2) as X2. pose proof (f_equal (Rmult y) A1) as Y1. pose proof (f_equal (Rmult y) A2) as Y2. pose proof (f_equal (Rmult r) A1) as Z1. pose proof (f_equal (Rmult r) A2) as Z2.
    pose proof (f_equal (Rmult x) B1) as X3. pose proof (f_equal (Rmult x) B2) as X4. pose proof (f_equal (Rmult y) B1) as Y3. pose proof (f_equal (Rmult y) B2) as Y4. pose proof (f_equal (Rmult r) B1) as Z3. pose proof (f_equal (Rmult r) B2) as Z4.
    assert (Q1 : (x * x - y * y + r * r) * v1 - 2 * x * y * v2 = 0) by lra. assert (Q2 : (x * x - y * y + r * r) * v2 + 2 * x * y * v1 = 0) by lra.
    assert (Q3 : (x * x - y * y + r * r) * w1 - 2 * x * y * w2 = 0) by lra. assert (Q4 : (x * x - y * y + r * r) * w2 + 2 * x * y * w1 = 0) by lra.
    clear X1 X2 X3 X4 Y1 Y2 Y3 Y4 Z1 Z2 Z3 Z4 A1 A2 B1 B2 Iz Nz.
    set (P := x * x - y * y + r * r) in *. set (Q := 2 * x * y) in *. 
    assert (S0 : (P * P + Q * Q) * (v1 * v1 + v2 * v2 + w1 * w1 + w2 * w2) = 0).
    { replace ((P * P + Q * Q) * (v1 * v1 + v2 * v2 + w1 * w1 + w2 * w2)) with ((P * v1 - Q * v2) * (P * v1 - Q * v2) + (P * v2 + Q * v1) * (P * v2 + Q * v1) + (P * w1 - Q * w2) * (P * w1 - Q * w2) + (P * w2 + Q * w1) * (P * w2 + Q * w1)) by ring. rewrite Q1, Q2, Q3, Q4. ring. }
    apply Rmult_integral in S0. destruct S0 as [S0|S0]; [|lra]. assert (P0 : P = 0) by nra. assert (Q0 : Q = 0) by nra. subst P Q. clear - P0 Q0. assert (x = 0) by (assert (D : x * y = 0) by lra; apply Rmult_integral in D; destruct D as [D|D]; [exact D|subst y; assert (x * x + r * r = 0) by lra; nra]). subst x. assert (K : (y - r) * (y + r) = 0) by lra. apply Rmult_integral in K. destruct K; [left|right; left]; f_equal; lra.
Qed.
