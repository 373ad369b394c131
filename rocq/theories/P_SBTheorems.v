(** Consequences for the theorems about the Smit-Beljers solver. *)
From Verif Require Export S_SB.
From Verif Require Import P_Sym P_Resist P_Vec P_SB P_SBDescent P_SBMotion P_SBResponse.
From Coq Require Import Psatz FunctionalExtensionality.
Open Scope R_scope.
Open Scope st_scope.

Lemma loop_hermitian th ph z E N : (forall rho, defined rho E) -> hermitian (2 * N) (hessian_loop th ph z E N).
Proof.
  intros D r c rho Hr Hc.
  assert (Sp : forall k, (k < 2 * N)%nat -> exists a x, k = (2 * a + x)%nat /\ (x < 2)%nat /\ (a < N)%nat).
  { intros k Hk. exists (k / 2)%nat, (k mod 2)%nat. pose proof (Nat.div_mod_eq k 2). pose proof (Nat.mod_upper_bound k 2). lia. }
  destruct (Sp r Hr) as (a & x & -> & Hx & Ha). destruct (Sp c Hc) as (b & y & -> & Hy & Hb).
  destruct (hessian_cell th ph z E N a x b y D Ha Hb Hx Hy) as [C1 C2]. destruct (hessian_cell th ph z E N b y a x D Hb Ha Hy Hx) as [D1 D2]. split.
  - rewrite C1, D1. apply diff_swap, D.
  - rewrite C2, D2, (Nat.eqb_sym b a), (Nat.eqb_sym y x). destruct (Nat.eqb_spec a b) as [->|]; [|cbn; ring]. destruct (Nat.eqb_spec x y) as [->|N1]; [cbn; ring|].
    assert (Cx : x = 0%nat \/ x = 1%nat) by lia. assert (Cy : y = 0%nat \/ y = 1%nat) by lia. destruct Cx as [-> | ->], Cy as [-> | ->]; try contradiction; unfold ENeg; cbn; ring.
Qed.
Lemma solver_hermitian s h : energy_hessian s = Ok h -> hermitian (2 * length (sv_layers s)) h.
Proof.
  intros H. unfold energy_hessian in H. apply rbind_iff in H. destruct H as [E [HE H]]. injection H as <-. apply loop_hermitian. intros rho. apply whole_defined, (energy_none_whole s false E HE).
Qed.
Lemma solver_hessian_ok s : (exists h, energy_hessian s = Ok h) <-> sv_H s <> None.
Proof.
  unfold energy_hessian. split.
  - intros [h H]. apply rbind_iff in H. destruct H as [E [HE _]]. destruct (proj1 (energy_ok s None false) (ex_intro _ E HE)) as [C|C]; [contradiction|exact C].
  - intros H. destruct (proj2 (energy_ok s None false) (or_intror H)) as [E HE]. rewrite HE. cbn. eauto.
Qed.
Lemma one_energy l t H rho : system_energy (one_layer (with_thickness t l) H) (get_cartesian H) rho = t * film_energy l (get_cartesian H) (direction l rho).
Proof. unfold system_energy, one_layer. cbn [sv_layers length Sigma Nat.sub the_layer nth]. change (film_energy (with_thickness t l)) with (film_energy l). change (direction (with_thickness t l)) with (direction l). cbn. ring. Qed.
Lemma one_det l t H h rho a b c : t <> 0 -> energy_hessian (one_layer (with_thickness t l) H) = Ok h ->
  let f r := film_energy l (get_cartesian H) (direction l r) in
  partial2 f rho (sb_theta l) (sb_theta l) a -> partial2 f rho (sb_phi l) (sb_phi l) b -> partial2 f rho (sb_theta l) (sb_phi l) c ->
  det2 h rho = (0, 0) <-> square (rho Omega / gamma * sb_Ms l * sin (rho (sb_theta l))) = a * b - square c.
Proof.
  intros Ht Hh f Ha Hb Hc. apply energy_hessian_iff in Hh. destruct Hh as (v & Hv & Hh). injection Hv as <-. cbn [sv_layers one_layer length] in Hh.
  set (e := no_interaction_symbolic_energy l (cart (get_cartesian H))).
  assert (We : whole e) by (apply whole_film; cbn; repeat split).
  assert (Ef : f = fun r => eval r e) by (apply functional_extensionality; intros r; unfold f, e; rewrite film_eval, eval_cart; reflexivity).
  assert (Es : system_energy (one_layer (with_thickness t l) H) (get_cartesian H) = fun r => eval r (EMul (ENum t) e)).
  { apply functional_extensionality; intros r. rewrite one_energy. cbn [eval]. change (film_energy l (get_cartesian H) (direction l r)) with (f r). rewrite Ef. reflexivity. }
  assert (Wt : whole (EMul (ENum t) e)) by (cbn; tauto).
  assert (Sc : forall u w x, partial2 f rho u w x -> partial2 (system_energy (one_layer (with_thickness t l) H) (get_cartesian H)) rho u w (t * x)).
  { intros u w x Hx. rewrite Es. replace (t * x) with (eval rho (diff (diff (EMul (ENum t) e) u) w)); [apply diff_partial2, Wt|]. rewrite Ef in Hx. rewrite (partial2_det _ _ _ _ _ _ Hx (diff_partial2 e rho u w We)). cbn. ring. }
  assert (Hc' : partial2 f rho (sb_phi l) (sb_theta l) c).
  { rewrite Ef in *. rewrite (partial2_det _ _ _ _ _ _ Hc (diff_partial2 e rho _ _ We)). rewrite diff_swap by (apply whole_defined, We). apply diff_partial2, We. }
  rewrite (det_one _ _ _ _ _ rho (t * a) (t * b) (t * c) Hh (Sc _ _ _ Ha) (Sc _ _ _ Hb) (Sc _ _ _ Hc) (Sc _ _ _ Hc')).
  change (the_layer (one_layer (with_thickness t l) H) 0) with (with_thickness t l). cbn [with_thickness sb_Ms sb_id sb_thickness]. change (Theta (sb_id l)) with (sb_theta l).
  set (w := rho Omega / gamma * sb_Ms l * sin (rho (sb_theta l))). unfold square.
  replace (t * a * (t * b) - t * c * (t * c) - w * t * (w * t)) with (t * t * (a * b - c * c - w * w)) by ring. assert (t * t <> 0) by nra. split; intros X.
  - injection X as X. apply Rmult_integral in X. destruct X; [contradiction|lra].
  - rewrite <- X. f_equal. ring.
Qed.

(** ** Descent *)
Lemma descends_far (next : list (list R) -> list R -> list R -> Prop) grad tol mx start xs gs r b : 0 <= b ->
  (forall gs x y, next gs x y -> length y = length x) ->
  (forall gs x y c, (0 < length gs)%nat -> next gs x y -> (c < length x)%nat -> Rabs (nth c y 0 - nth c x 0) <= b) ->
  descends next grad tol mx start xs gs r -> forall c, (c < length start)%nat -> Rabs (nth c r 0 - nth c start 0) <= INR mx * b.
Proof.
  intros Hb HL HS (L & B & P0 & Pr & G & S' & _) c Hc.
  assert (K : forall k, (k < length xs)%nat -> length (nth k xs []) = length start /\ Rabs (nth c (nth k xs []) 0 - nth c start 0) <= INR k * b).
  { induction k as [|k IH]; intros Hk.
    - rewrite P0. split; [reflexivity|]. replace (nth c start 0 - nth c start 0) with 0 by ring. rewrite Rabs_R0. cbn. lra.
    - destruct IH as [I1 I2]; [lia|]. destruct (S' k Hk) as [N _]. pose proof (HL _ _ _ N) as N1. split; [congruence|].
      assert (Q : Rabs (nth c (nth (S k) xs []) 0 - nth c (nth k xs []) 0) <= b). { apply (HS (firstn (S k) gs)); [rewrite firstn_length; lia|exact N|rewrite I1; exact Hc]. }
      rewrite S_INR. replace (nth c (nth (S k) xs []) 0 - nth c start 0) with ((nth c (nth (S k) xs []) 0 - nth c (nth k xs []) 0) + (nth c (nth k xs []) 0 - nth c start 0)) by ring.
      eapply Rle_trans; [apply Rabs_triang|]. lra. }
  rewrite <- Pr. destruct (K (length xs - 1)%nat ltac:(lia)) as [_ K2]. eapply Rle_trans; [exact K2|]. apply Rmult_le_compat_r; [exact Hb|]. apply le_INR. lia.
Qed.
Lemma hist_total next grad tol : (forall x, exists g, grad x = Ok g /\ length g = length x) -> (forall gs x, (0 < length gs)%nat -> exists y, next gs x = Ok y) ->
  forall more gs pos, exists r, hist_loop next grad tol more gs pos = Ok r.
Proof.
  intros G N more. induction more as [|more IH]; intros gs pos; cbn [hist_loop]; destruct (G pos) as (g & -> & L); cbn [rbind]; rewrite L, Nat.eqb_refl; cbn [negb];
    (destruct (N (gs ++ [g])%list pos) as [y Hy]; [rewrite app_length; cbn; lia|]); rewrite Hy; cbn [rbind]; [eauto|]. destruct (Rlt_dec _ _); [eauto|apply IH].
Qed.
Lemma pow_ne1 b n : 0 <= b < 1 -> (0 < n)%nat -> b ^ n < 1.
Proof. intros Hb Hn. pose proof (pow_lt1 b n Hb Hn). lra. Qed.
Lemma adam_total grad p mx pert noise init : 0 <= dp_b1 p < 1 -> 0 <= dp_b2 p < 1 -> (forall x, exists g, grad x = Ok g /\ length g = length x) ->
  exists r, adam_gradient_descent grad p mx pert noise init = Ok r.
Proof.
  intros B1 B2 G. destruct (hist_total (adam_fn p) grad (dp_tol p) G) with (more := Z.to_nat mx) (gs := @nil (list R)) (pos := perturbed pert noise init) as [r Hr].
  - intros gs x Hn.
    set (v := fun c => ema (dp_b2 p) (map square (component c gs)) / (1 - dp_b2 p ^ length gs)). set (m := fun c => ema (dp_b1 p) (component c gs) / (1 - dp_b1 p ^ length gs)).
    exists (coords (length x) (fun c => nth c x 0 - dp_rate p * m c / (sqrt (v c) + / 10 ^ 12))). apply adam_fn_iff. split; [apply coords_len|]. intros c Hc. cbv zeta.
    pose proof (pow_ne1 _ _ B1 Hn). pose proof (pow_ne1 _ _ B2 Hn). repeat split; [lra|lra| |rewrite coords_nth by exact Hc; reflexivity].
    apply Rmult_le_pos; [apply ema_sq_nonneg; lra|left; apply Rinv_0_lt_compat; lra].
  - exists r. apply adam_iff. apply (hist_loop_iff (adam_fn p) (adam_next p) grad (dp_tol p) (adam_fn_iff p) (fun gs x y H => proj1 H)) in Hr. exact Hr.
Qed.
Lemma amsgrad_total grad p mx pert noise init : (forall x, exists g, grad x = Ok g /\ length g = length x) ->
  exists r, amsgrad_gradient_descent grad p mx pert noise init = Ok r.
Proof.
  intros G. destruct (hist_total (ams_fn p) grad (dp_tol p) G) with (more := Z.to_nat mx) (gs := @nil (list R)) (pos := perturbed pert noise init) as [r Hr].
  - intros gs x Hn. exists (coords (length x) (fun c => nth c x 0 - dp_rate p * ema (dp_b1 p) (component c gs) / (sqrt (peak (dp_b2 p) c gs) + / 10 ^ 12))). apply ams_fn_iff. split; [apply coords_len|]. intros c Hc. cbv zeta. rewrite coords_nth by exact Hc. reflexivity.
  - exists r. apply amsgrad_iff. apply (hist_loop_iff (ams_fn p) (amsgrad_next p) grad (dp_tol p) (ams_fn_iff p) (fun gs x y H => proj1 H)) in Hr. exact Hr.
Qed.
Lemma adam_stationary grad p mx noise init : dp_b1 p <> 1 -> dp_b2 p <> 1 -> 0 < dp_tol p -> grad init = Ok (map (fun _ => 0) init) ->
  adam_gradient_descent grad p mx 0 noise init = Ok init.
Proof.
  intros B1 B2 T G. apply adam_iff. unfold perturbed. destruct (Req_EM_T 0 0); [|contradiction]. exists [init], [map (fun _ => 0) init]. unfold descends. cbn [length nth Nat.sub].
  split; [reflexivity|]. split; [lia|]. split; [reflexivity|]. split; [reflexivity|]. split; [intros [|k] Hk; [|lia]; split; [exact G|apply map_length]|]. split; [intros; lia|].
  exists init. split.
  - split; [reflexivity|]. intros c Hc. cbv zeta. cbn [length component map].
    assert (Z : nth c (map (fun _ => 0) init) 0 = 0) by (rewrite (map_nth (fun _ => 0) init 0); reflexivity). rewrite Z. unfold ema. cbn [length Sigma nth Nat.sub]. rewrite !pow_1. repeat split; [exact B1|exact B2| |].
    + unfold square. rewrite !Rmult_0_l, Rmult_0_r, Rplus_0_l. unfold Rdiv. rewrite Rmult_0_l. lra.
    + rewrite Rmult_0_r, Rplus_0_l. unfold Rdiv. rewrite Rmult_0_l, Rmult_0_r, Rmult_0_l. ring.
  - right. unfold distance. rewrite (Sigma_ext _ _ (fun _ => 0)) by (intros; unfold square; ring). replace (Sigma (length init) (fun _ => 0)) with 0; [rewrite sqrt_0; exact T|]. clear. induction (length init) as [|n IH]; cbn; [reflexivity|rewrite <- IH; ring].
Qed.

(** ** Response *)
Lemma responds_scale a s F rho var w y : responds (fun _ => a) s F rho var w y -> responds (fun _ => 1) s F rho var w (fun r => (a * fst (y r), a * snd (y r))).
Proof.
  intros H r Hr. destruct (H r Hr) as (J & v & P & V & E1 & E2). exists J, v. split; [exact P|]. split; [exact V|]. cbn [fst snd]. split.
  - rewrite <- E1. rewrite (Sigma_ext _ _ (fun c => a * (J c * fst (y c)))) by (intros; ring). rewrite Sigma_scal. ring.
  - rewrite <- E2. rewrite (Sigma_ext _ _ (fun c => a * (J c * snd (y c)))) by (intros; ring). rewrite Sigma_scal. ring.
Qed.
