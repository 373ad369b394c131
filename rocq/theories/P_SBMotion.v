(** Proofs about positions, gradient, resonance, equation of motion and scans of the Smit-Beljers solver. *)
From Verif Require Export S_SB.
From Verif Require Import P_Sym P_Resist P_Vec P_SB P_SBDescent.
From Coq Require Import Psatz FunctionalExtensionality Permutation.
Open Scope R_scope.
Open Scope st_scope.

(** ** Rotating basis *)
Definition span (x y t p : R) : cvec := Plus (Scal x (e_theta t p)) (Scal y (e_phi p)).
Lemma sc2 t : sin t * sin t = 1 - cos t * cos t.
Proof. pose proof (sin2_cos2 t) as H. unfold Rsqr in H. lra. Qed.
Lemma span_inj x y x' y' t p : span x y t p = span x' y' t p <-> x = x' /\ y = y'.
Proof.
  split; [|intros [-> ->]; reflexivity]. unfold span, e_theta, e_phi, Plus, Scal. cbn [cx cy cz]. intros H. injection H as H1 H2 H3.
  pose proof (sc2 t) as St. pose proof (sc2 p) as Sp.
  assert (E : y = y').
  { assert (y * (sin p * sin p + cos p * cos p) = y' * (sin p * sin p + cos p * cos p)).
    { assert (- sin p * (x * (cos t * cos p) + y * - sin p) + cos p * (x * (cos t * sin p) + y * cos p) = - sin p * (x' * (cos t * cos p) + y' * - sin p) + cos p * (x' * (cos t * sin p) + y' * cos p)) by (rewrite H1, H2; ring). lra. }
    rewrite Sp in H. replace (1 - cos p * cos p + cos p * cos p) with 1 in H by ring. lra. }
  split; [|exact E]. subst y'.
  assert (A1 : x * (cos t * cos p) = x' * (cos t * cos p)) by lra. assert (A2 : x * (cos t * sin p) = x' * (cos t * sin p)) by lra.
  assert (A3 : x * sin t = x' * sin t) by lra.
  assert (A4 : x * cos t = x' * cos t).
  { assert (x * cos t * (sin p * sin p + cos p * cos p) = x' * cos t * (sin p * sin p + cos p * cos p)).
    { transitivity (sin p * (x * (cos t * sin p)) + cos p * (x * (cos t * cos p))); [ring|]. rewrite A1, A2. ring. }
    rewrite Sp in H. replace (1 - cos p * cos p + cos p * cos p) with 1 in H by ring. lra. }
  assert (A5 : x * (sin t * sin t + cos t * cos t) = x' * (sin t * sin t + cos t * cos t)).
  { transitivity (sin t * (x * sin t) + cos t * (x * cos t)); [ring|]. rewrite A3, A4. ring. }
  rewrite St in A5. replace (1 - cos t * cos t + cos t * cos t) with 1 in A5 by ring. lra.
Qed.
Lemma cross_span x y t p : Cross (point t p 1) (span x y t p) = span (- y) x t p.
Proof.
  unfold span, e_theta, e_phi, Plus, Scal, Cross, point. cbn [cx cy cz]. pose proof (sc2 t) as St. pose proof (sc2 p) as Sp. f_equal; ring_simplify; try nra.
  all: rewrite ?Rmult_1_l; replace (sin t ^ 2) with (1 - cos t * cos t) by (cbn; lra); replace (sin p ^ 2) with (1 - cos p * cos p) by (cbn; lra); ring.
Qed.
Lemma scal_span k x y t p : Scal k (span x y t p) = span (k * x) (k * y) t p.
Proof. unfold span, e_theta, e_phi, Plus, Scal. cbn [cx cy cz]. f_equal; ring. Qed.
Lemma plus_span x y x' y' t p : Plus (span x y t p) (span x' y' t p) = span (x + x') (y + y') t p.
Proof. unfold span, e_theta, e_phi, Plus, Scal. cbn [cx cy cz]. f_equal; ring. Qed.

Definition theta_rate (l : layerSB) (d : dynamics) (t ut up hoe v : R) : R :=
  gamma_rad / (1 + dy_alpha d ^ 2) * (- (/ soft_sin t * up) - dy_alpha d * ut + sb_Ms l * hoe + sin t * (- (dy_torque_par d * v) - dy_alpha d * (dy_torque_perp d * v))) * / sb_Ms l.
Definition phi_rate (l : layerSB) (d : dynamics) (t ut up hoe v : R) : R :=
  gamma_rad / (1 + dy_alpha d ^ 2) * (/ soft_sin t * ut - dy_alpha d * up * (/ soft_sin t * / soft_sin t) + dy_alpha d * sb_Ms l * hoe * / soft_sin t + (- (dy_torque_perp d * v) + dy_alpha d * (dy_torque_par d * v))) * / sb_Ms l.
Lemma one_alpha a : 1 + a ^ 2 <> 0.
Proof. pose proof (pow2_ge_0 a). lra. Qed.
Lemma moves_iff l d t p ut up hoe v a b : soft_sin t <> 0 -> sb_Ms l <> 0 ->
  moves l d t p ut up hoe v (a, b) <-> a = theta_rate l d t ut up hoe v /\ b = phi_rate l d t ut up hoe v.
Proof.
  intros Hs Hm. unfold moves. cbn [fst snd]. cbv zeta.
  change (Plus (Scal ?x (e_theta t p)) (Scal ?y (e_phi p))) with (span x y t p).
  rewrite !cross_span, !scal_span, !cross_span, !scal_span, !plus_span, span_inj. pose proof (one_alpha (dy_alpha d)) as Ha. unfold square, theta_rate, phi_rate.
  assert (Ha' : 1 + dy_alpha d * dy_alpha d <> 0) by (cbn in Ha; lra).
  split; intros [E1 E2]; split.
  - apply (Rmult_eq_reg_l (1 + dy_alpha d * dy_alpha d)); [|exact Ha']. rewrite E1. field. auto.
  - apply (Rmult_eq_reg_l (soft_sin t)); [|exact Hs]. apply (Rmult_eq_reg_l (1 + dy_alpha d * dy_alpha d)); [|exact Ha']. rewrite E2. field. auto.
  - rewrite E1. field. auto.
  - rewrite E2. field. auto.
Qed.
Lemma rhs_eval l d U (osc : bool) rho : let t := rho (sb_theta l) in
  eval rho (fst (rhs_spherical_llg l d U osc)) = theta_rate l d t (eval rho (diff U (sb_theta l))) (eval rho (diff U (sb_phi l))) (if osc then rho Hoe else 0) (if osc then rho Vp else 1) /\
  eval rho (snd (rhs_spherical_llg l d U osc)) = phi_rate l d t (eval rho (diff U (sb_theta l))) (eval rho (diff U (sb_phi l))) (if osc then rho Hoe else 0) (if osc then rho Vp else 1).
Proof.
  unfold rhs_spherical_llg, torque, theta_rate, phi_rate, soft_sin, EDiv, ESq. cbn [fst snd eval].
  split; destruct osc; cbn [eval]; rewrite ?eval_sub; unfold ENeg, EPS; cbn [eval]; set (g := gamma_rad / _); set (w := / sb_Ms l); set (q := / (_ + _)); ring.
Qed.
Lemma rhs_moves l d U (osc : bool) rho ut up : soft_sin (rho (sb_theta l)) <> 0 -> sb_Ms l <> 0 -> defined rho U ->
  partial (fun r => eval r U) rho (sb_theta l) ut -> partial (fun r => eval r U) rho (sb_phi l) up ->
  forall rate, moves l d (rho (sb_theta l)) (rho (sb_phi l)) ut up (if osc then rho Hoe else 0) (if osc then rho Vp else 1) rate <->
  rate = (eval rho (fst (rhs_spherical_llg l d U osc)), eval rho (snd (rhs_spherical_llg l d U osc))).
Proof.
  intros Hs Hm HU Ht Hp [a b]. rewrite moves_iff by assumption. destruct (rhs_eval l d U osc rho) as [E1 E2].
  rewrite <- (partial_det _ _ _ _ _ Ht (diff_partial U rho _ HU)) in E1, E2. rewrite <- (partial_det _ _ _ _ _ Hp (diff_partial U rho _ HU)) in E1, E2.
  rewrite E1, E2. split; [intros [-> ->]; reflexivity|intros H; injection H; auto].
Qed.
Lemma dissipation l d t p ut up a b : soft_sin t <> 0 -> sb_Ms l <> 0 -> dy_torque_par d = 0 -> dy_torque_perp d = 0 ->
  moves l d t p ut up 0 1 (a, b) -> ut * a + up * b = - gamma_rad * dy_alpha d / ((1 + square (dy_alpha d)) * sb_Ms l) * (square ut + square (up / soft_sin t)).
Proof.
  intros Hs Hm H1 H2 H. apply moves_iff in H; [|assumption..]. destruct H as [-> ->]. unfold theta_rate, phi_rate, square. rewrite H1, H2. pose proof (one_alpha (dy_alpha d)) as Ha. cbn in Ha. rewrite Rmult_1_r in Ha. field. auto.
Qed.
Lemma torque_form l d rho v : v = 1 -> let t := rho (sb_theta l) in let p := rho (sb_phi l) in
  let T := span (- dy_torque_par d * sin t) (- dy_torque_perp d * sin t) t p in
  span (eval rho (fst (torque l d false))) (sin t * eval rho (snd (torque l d false))) t p = Plus T (Scal (- dy_alpha d) (Cross (point t p 1) T)).
Proof.
  intros ->. cbv zeta. rewrite cross_span, scal_span, plus_span. unfold torque. cbn [fst snd eval]. rewrite eval_sub. unfold ENeg. cbn [eval]. f_equal; ring.
Qed.

(** ** Positions *)
Lemma angle_theta s i : angle s (2 * i) = Theta (sb_id (the_layer s i)).
Proof. unfold angle. rewrite <- (Nat.add_0_r (2 * i)), coordinate_bit by lia. reflexivity. Qed.
Lemma angle_phi s i : angle s (2 * i + 1) = Phi (sb_id (the_layer s i)).
Proof. unfold angle. rewrite coordinate_bit by lia. reflexivity. Qed.
Lemma angle_loop s r : coordinate (fun i => sb_theta (the_layer s i)) (fun i => sb_phi (the_layer s i)) r = angle s r.
Proof. reflexivity. Qed.
Lemma energy_local s h rho rho' : (forall k, (k < 2 * length (sv_layers s))%nat -> rho (angle s k) = rho' (angle s k)) -> system_energy s h rho = system_energy s h rho'.
Proof.
  intros Ha. assert (D : forall i, (i < length (sv_layers s))%nat -> direction (the_layer s i) rho = direction (the_layer s i) rho').
  { intros i Hi. unfold direction. rewrite <- angle_theta, <- angle_phi, !Ha by lia. reflexivity. }
  unfold system_energy. cbv zeta. f_equal; apply Sigma_ext; intros i Hi; rewrite !D by lia; reflexivity.
Qed.
Lemma assign_same u x rho : assign u x rho u = x.
Proof. unfold assign. destruct (symbol_eq_dec u u); [reflexivity|contradiction]. Qed.
Lemma assign_other u v x rho : v <> u -> assign u x rho v = rho v.
Proof. unfold assign. destruct (symbol_eq_dec v u); [contradiction|reflexivity]. Qed.
Lemma subs_other ls : forall pos rho0 rho, get_subs ls pos rho0 = Ok rho -> forall u, (forall l, In l ls -> u <> sb_theta l /\ u <> sb_phi l) -> rho u = rho0 u.
Proof.
  induction ls as [|l ls IH]; intros pos rho0 rho H u Hu; [cbn in H; injection H as <-; reflexivity|].
  cbn in H. destruct pos as [|t [|p pos]]; try discriminate. rewrite (IH _ _ _ H u) by (intros l' Hl'; apply Hu; right; exact Hl').
  destruct (Hu l (or_introl eq_refl)) as [H1 H2]. rewrite !assign_other by assumption. reflexivity.
Qed.
Lemma subs_at ls : forall pos rho0 rho, NoDup (map sb_id ls) -> get_subs ls pos rho0 = Ok rho ->
  forall i l, nth_error ls i = Some l -> rho (Theta (sb_id l)) = nth (2 * i) pos 0 /\ rho (Phi (sb_id l)) = nth (2 * i + 1) pos 0.
Proof.
  induction ls as [|l ls IH]; intros pos rho0 rho ND H i l' Hi; [destruct i; discriminate|].
  cbn [get_subs] in H. destruct pos as [|t [|p pos]]; try discriminate. cbn [map] in ND. inversion ND as [|? ? N1 N2]; subst. destruct i as [|i].
  - injection Hi as <-. assert (O : forall u, u = sb_theta l \/ u = sb_phi l -> forall k, In k ls -> u <> sb_theta k /\ u <> sb_phi k).
    { intros u Hu k Hk. assert (sb_id k <> sb_id l) by (intros E; apply N1; rewrite <- E; apply in_map; exact Hk). unfold sb_theta, sb_phi in *. destruct Hu as [-> | ->]; split; congruence. }
    split.
    + rewrite (subs_other _ _ _ _ H (Theta (sb_id l))) by (apply O; left; reflexivity). rewrite assign_other by (unfold sb_phi; discriminate). rewrite assign_same. reflexivity.
    + rewrite (subs_other _ _ _ _ H (Phi (sb_id l))) by (apply O; right; reflexivity). rewrite assign_same. reflexivity.
  - destruct (IH _ _ _ N2 H i l' Hi) as [E1 E2]. rewrite E1, E2. replace (2 * S i + 1)%nat with (S (S (2 * i + 1))) by lia. replace (2 * S i)%nat with (S (S (2 * i))) by lia. split; reflexivity.
Qed.
Lemma subs_ok ls : forall pos rho0, (exists rho, get_subs ls pos rho0 = Ok rho) <-> (2 * length ls <= length pos)%nat.
Proof.
  induction ls as [|l ls IH]; intros pos rho0; [cbn; split; [lia|eauto]|].
  cbn [get_subs]. destruct pos as [|t [|p pos]]; try (cbn; split; [intros [r H]; discriminate|lia]). rewrite IH. cbn [length]. split; lia.
Qed.
Lemma layer_nth s i : (i < length (sv_layers s))%nat -> nth_error (sv_layers s) i = Some (the_layer s i).
Proof. intros H. unfold the_layer. apply nth_error_nth'. exact H. Qed.
Lemma subs_placed s pos rho0 rho : distinct s -> get_subs (sv_layers s) pos rho0 = Ok rho -> placed s pos rho.
Proof.
  intros D H k Hk. assert (exists a x, k = (2 * a + x)%nat /\ (x < 2)%nat) as (a & x & -> & Hx).
  { exists (k / 2)%nat, (k mod 2)%nat. pose proof (Nat.div_mod_eq k 2). pose proof (Nat.mod_upper_bound k 2). lia. }
  destruct (subs_at _ _ _ _ D H a (the_layer s a) (layer_nth s a ltac:(lia))) as [E1 E2]. assert (Cx : x = 0%nat \/ x = 1%nat) by lia. destruct Cx as [-> | ->].
  - rewrite Nat.add_0_r in *. rewrite angle_theta. exact E1.
  - rewrite angle_phi. exact E2.
Qed.
Lemma partial_local s h rho rho' u l : (forall k, (k < 2 * length (sv_layers s))%nat -> rho (angle s k) = rho' (angle s k)) -> rho u = rho' u ->
  partial (system_energy s h) rho u l -> partial (system_energy s h) rho' u l.
Proof.
  intros Ha Hu H. unfold partial in *. rewrite <- Hu. refine (lim_ext _ _ _ _ _ H). intros t. apply energy_local. intros k Hk. unfold upd. destruct (symbol_eq_dec _ _); [reflexivity|]. apply Ha, Hk.
Qed.
Lemma partial2_local s h rho rho' u w l : (forall k, (k < 2 * length (sv_layers s))%nat -> rho (angle s k) = rho' (angle s k)) -> rho u = rho' u -> rho w = rho' w ->
  partial2 (system_energy s h) rho u w l -> partial2 (system_energy s h) rho' u w l.
Proof.
  intros Ha Hu Hw (g & G & H). exists g. split; [exact G|]. unfold partial in *. rewrite <- Hw. refine (lim_ext _ _ _ _ _ H). intros t.
  assert (L : partial (system_energy s h) (upd rho' w t) u (g (upd rho w t))).
  { apply (partial_local s h (upd rho w t)); [..|apply G]. - intros k Hk. unfold upd. destruct (symbol_eq_dec _ _); [reflexivity|]. apply Ha, Hk. - unfold upd. destruct (symbol_eq_dec _ _); [reflexivity|]. exact Hu. }
  exact (partial_det _ _ _ _ _ L (G _)).
Qed.

(** ** Gradient *)
Lemma grad_exprs_nth s E k : (k < 2 * length (sv_layers s))%nat -> nth_error (gradient_exprs s E) k = Some (diff E (angle s k)).
Proof.
  intros Hk. unfold gradient_exprs, angle, the_layer, coordinate. revert k Hk. induction (sv_layers s) as [|l ls IH]; intros k Hk; [cbn in Hk; lia|].
  destruct k as [|[|k]]; [reflexivity..|]. cbn [flat_map app nth_error]. rewrite IH by (cbn [length] in Hk; lia). cbn [Nat.even Nat.div2 nth]. reflexivity.
Qed.
Lemma grad_exprs_len s E : length (gradient_exprs s E) = (2 * length (sv_layers s))%nat.
Proof. unfold gradient_exprs. induction (sv_layers s) as [|l ls IH]; [reflexivity|]. cbn [flat_map app length]. rewrite IH. lia. Qed.
Lemma energy_none s vol E v : sv_H s = Some v -> create_energy s None vol = Ok E -> forall rho, eval rho E = system_energy s (get_cartesian v) rho.
Proof.
  intros Hv H rho. apply energy_eval in H. destruct H as (h & Hh & H). destruct Hh as [Hh|[_ (v' & Hv' & ->)]]; [discriminate|]. rewrite H, eval_cart. congruence.
Qed.
Lemma energy_none_ok s vol v : sv_H s = Some v -> exists E, create_energy s None vol = Ok E.
Proof. intros H. apply energy_ok. right. congruence. Qed.
Lemma energy_none_whole s vol E : create_energy s None vol = Ok E -> whole E.
Proof. apply energy_whole. discriminate. Qed.
Lemma gradfn_iff s pos g : distinct s -> gradfn s pos = Ok g <->
  exists v, sv_H s = Some v /\ length pos = (2 * length (sv_layers s))%nat /\ length g = (2 * length (sv_layers s))%nat /\
  forall k rho, (k < 2 * length (sv_layers s))%nat -> placed s pos rho -> partial (system_energy s (get_cartesian v)) rho (angle s k) (nth k g 0).
Proof.
  intros D. unfold gradfn. split.
  - intros H. apply rbind_iff in H. destruct H as [E [HE H]]. destruct (Nat.eqb_spec (length pos) (2 * length (sv_layers s))) as [L|]; [|discriminate]. cbn [negb] in H.
    apply rbind_iff in H. destruct H as [r0 [Hr H]]. injection H as <-.
    destruct (sv_H s) as [v|] eqn:Hv; [|exfalso; unfold create_energy in HE; rewrite Hv in HE; discriminate]. exists v. split; [reflexivity|]. split; [exact L|]. split; [rewrite map_length, grad_exprs_len; reflexivity|].
    intros k rho Hk Hp. pose proof (subs_placed s pos _ r0 D Hr) as P0.
    rewrite (nth_error_nth _ _ 0 (map_nth_error (eval r0) _ _ (grad_exprs_nth s E k Hk))).
    apply (partial_local s _ r0); [intros j Hj; rewrite Hp, P0 by exact Hj; reflexivity|rewrite Hp, P0 by exact Hk; reflexivity|].
    replace (system_energy s (get_cartesian v)) with (fun r => eval r E) by (apply functional_extensionality; intros; apply (energy_none s false E v Hv HE)).
    apply diff_partial, whole_defined, (energy_none_whole s false), HE.
  - intros (v & Hv & L & Lg & G). destruct (energy_none_ok s false v Hv) as [E HE]. rewrite HE. cbn [rbind]. rewrite L, Nat.eqb_refl. cbn [negb].
    destruct (proj2 (subs_ok (sv_layers s) pos nothing) ltac:(lia)) as [r0 Hr]. rewrite Hr. cbn [rbind]. f_equal. apply nth_ext with (d := 0) (d' := 0); rewrite map_length, grad_exprs_len; [symmetry; exact Lg|].
    intros k Hk. rewrite (nth_error_nth _ _ 0 (map_nth_error (eval r0) _ _ (grad_exprs_nth s E k Hk))). pose proof (subs_placed s pos _ r0 D Hr) as P0. specialize (G k r0 Hk P0).
    replace (system_energy s (get_cartesian v)) with (fun r => eval r E) in G by (apply functional_extensionality; intros; apply (energy_none s false E v Hv HE)).
    refine (partial_det _ _ _ _ _ _ G). apply diff_partial, whole_defined, (energy_none_whole s false), HE.
Qed.

(** ** Hessian of the solver *)
Lemma energy_hessian_iff s h : energy_hessian s = Ok h -> exists v, sv_H s = Some v /\
  smit_beljers (length (sv_layers s)) (fun i => Theta (sb_id (the_layer s i))) (fun i => Phi (sb_id (the_layer s i)))
    (fun i rho => rho Omega / gamma * sb_Ms (the_layer s i) * sin (rho (Theta (sb_id (the_layer s i)))) * sb_thickness (the_layer s i)) (system_energy s (get_cartesian v)) h.
Proof.
  unfold energy_hessian. intros H. apply rbind_iff in H. destruct H as [E [HE H]]. injection H as <-.
  destruct (sv_H s) as [v|] eqn:Hv; [|exfalso; unfold create_energy in HE; rewrite Hv in HE; discriminate]. exists v. split; [reflexivity|].
  exact (hessian_good _ _ (fun i => sb_correction (the_layer s i)) E _ _ (fun rho => whole_defined _ _ (energy_none_whole s false E HE)) (energy_none s false E v Hv HE)).
Qed.

(** ** Resonance *)
Lemma resonance_iff s i pos f v : distinct s -> sv_H s = Some v -> (i < length (sv_layers s))%nat -> length pos = (2 * length (sv_layers s))%nat ->
  forall rho a b c, placed s pos rho -> partial2 (system_energy s (get_cartesian v)) rho (angle s (2 * i)) (angle s (2 * i)) a ->
  partial2 (system_energy s (get_cartesian v)) rho (angle s (2 * i + 1)) (angle s (2 * i + 1)) b -> partial2 (system_energy s (get_cartesian v)) rho (angle s (2 * i)) (angle s (2 * i + 1)) c ->
  single_layer_resonance s i pos = Ok f <->
  let q := sin (nth (2 * i) pos 0 + / 10 ^ 18) * sb_Ms (the_layer s i) in
  q <> 0 /\ 0 <= a * b - square c /\ f = sqrt ((a * b - square c) / square q) * gamma_rad / (2 * PI).
Proof.
  intros D Hv Hi L rho a b c Hp Ha Hb Hc. unfold single_layer_resonance.
  assert (E1 : at_ (sv_layers s) i = Ok (the_layer s i)) by (apply at_iff, layer_nth, Hi). rewrite E1. cbn [rbind].
  assert (E2 : at_ pos (2 * i) = Ok (nth (2 * i) pos 0)) by (apply at_iff, nth_error_nth'; lia). rewrite E2. cbn [rbind].
  destruct (energy_none_ok s true v Hv) as [E HE]. rewrite HE. cbn [rbind].
  destruct (proj2 (subs_ok (sv_layers s) pos nothing) ltac:(lia)) as [r0 Hr]. rewrite Hr. cbn [rbind]. cbv zeta.
  pose proof (subs_placed s pos _ r0 D Hr) as P0.
  assert (Q : forall k j x, (k < 2 * length (sv_layers s))%nat -> (j < 2 * length (sv_layers s))%nat -> partial2 (system_energy s (get_cartesian v)) rho (angle s k) (angle s j) x -> eval r0 (diff (diff E (angle s k)) (angle s j)) = x).
  { intros k j x Hk Hj Hx. apply (partial2_local s _ rho r0) in Hx; [|intros n Hn; rewrite Hp, P0 by exact Hn; reflexivity|rewrite Hp, P0 by exact Hk; reflexivity|rewrite Hp, P0 by exact Hj; reflexivity].
    replace (system_energy s (get_cartesian v)) with (fun r => eval r E) in Hx by (apply functional_extensionality; intros; apply (energy_none s true E v Hv HE)).
    refine (partial2_det _ _ _ _ _ _ _ Hx). apply diff_partial2, (energy_none_whole s true), HE. }
  unfold sb_theta, sb_phi. rewrite <- angle_theta, <- angle_phi. rewrite (Q (2 * i)%nat (2 * i)%nat a ltac:(lia) ltac:(lia) Ha), (Q (2 * i + 1)%nat (2 * i + 1)%nat b ltac:(lia) ltac:(lia) Hb), (Q (2 * i)%nat (2 * i + 1)%nat c ltac:(lia) ltac:(lia) Hc).
  unfold vareps, square. set (q := sin _ * _).
  assert (Sq : forall q, q <> 0 -> 0 < q * q) by (intros; nra).
  split.
  - intros H. apply rbind_iff in H. destruct H as [w [Hw H]]. apply rbind_iff in H. destruct H as [r [Hr' H]]. injection H as <-. apply fdiv_iff in Hw. destruct Hw as [N ->]. apply np_sqrt_iff in Hr'. destruct Hr' as [N2 ->].
    assert (q <> 0) by (intros E0; apply N; rewrite E0; ring). split; [assumption|]. split.
    + apply (Rmult_le_reg_r (/ q ^ 2)); [apply Rinv_0_lt_compat; specialize (Sq q H); nra|]. rewrite Rmult_0_l. replace (c * c) with (c ^ 2) by ring. exact N2.
    + do 4 f_equal; ring.
  - intros (N & N1 & ->). apply rbind_iff. exists ((a * b - c * c) / (q * q)). split; [apply fdiv_iff; split; [specialize (Sq q N); nra|f_equal; ring]|].
    apply rbind_iff. eexists. split; [apply np_sqrt_iff; split; [|reflexivity]|reflexivity]. apply Rmult_le_pos; [exact N1|left; apply Rinv_0_lt_compat, Sq, N].
Qed.

(** ** One layer: thickness and determinant *)
Lemma eval_scaled e t rho u w : eval rho (diff (diff (EAdd (ENum 0) (EMul e (ENum t))) u) w) = t * eval rho (diff (diff e u) w).
Proof. cbn. ring. Qed.
Lemma thickness_resonance l H t pos f : 0 < t ->
  single_layer_resonance (one_layer (with_thickness 1 l) H) 0 pos = Ok f <-> single_layer_resonance (one_layer (with_thickness t l) H) 0 pos = Ok (t * f).
Proof.
  intros Ht. unfold single_layer_resonance. cbn [one_layer sv_layers at_ nth_error rbind]. destruct pos as [|th [|ph pos]].
  - cbn. split; discriminate.
  - cbn. split; discriminate.
  - cbn [Nat.mul Nat.add at_ nth_error rbind create_energy sv_H fold_left seq length Nat.sub sv_layers sb_thickness with_thickness get_subs].
    assert (CE : forall k, create_energy (one_layer (with_thickness k l) H) None true = Ok (EAdd (ENum 0) (EMul (no_interaction_symbolic_energy l (cart (get_cartesian H))) (ENum k)))) by reflexivity.
    rewrite !CE. cbn [rbind].
    change (sb_theta (with_thickness t l)) with (sb_theta l). change (sb_theta (with_thickness 1 l)) with (sb_theta l). change (sb_phi (with_thickness t l)) with (sb_phi l). change (sb_phi (with_thickness 1 l)) with (sb_phi l).
    cbv zeta. cbn [sb_Ms with_thickness]. rewrite !eval_scaled, !Rmult_1_l.
    set (rho := assign _ _ _). set (E := no_interaction_symbolic_energy _ _). set (a := eval rho _). set (b := eval rho (diff (diff E (sb_phi l)) (sb_phi l))). set (c := eval rho (diff (diff E (sb_theta l)) (sb_phi l))). set (q := (sin (th + vareps) * sb_Ms l) ^ 2).
    assert (Pq : 0 <= q) by apply pow2_ge_0.
    assert (X : t * a * (t * b) - (t * c) ^ 2 = t ^ 2 * (a * b - c ^ 2)) by ring. rewrite X. split; intros Hx.
    + apply rbind_iff in Hx. destruct Hx as [w [Hw Hx]]. apply rbind_iff in Hx. destruct Hx as [r [Hr Hx]]. injection Hx as <-. apply fdiv_iff in Hw. destruct Hw as [N ->]. apply np_sqrt_iff in Hr. destruct Hr as [P ->].
      apply rbind_iff. exists (t ^ 2 * (a * b - c ^ 2) / q). split; [apply fdiv_iff; auto|]. apply rbind_iff. exists (t * sqrt ((a * b - c ^ 2) / q)). split.
      * apply np_sqrt_iff. unfold Rdiv in *. rewrite Rmult_assoc. split; [apply Rmult_le_pos; [apply pow2_ge_0|exact P]|]. rewrite (sqrt_mult (t ^ 2) ((a * b - c ^ 2) * / q)) by (try apply pow2_ge_0; exact P). rewrite sqrt_pow2 by lra. reflexivity.
      * f_equal. unfold Rdiv. ring.
    + apply rbind_iff in Hx. destruct Hx as [w [Hw Hx]]. apply rbind_iff in Hx. destruct Hx as [r [Hr Hx]]. injection Hx as Hx. apply fdiv_iff in Hw. destruct Hw as [N ->]. apply np_sqrt_iff in Hr. destruct Hr as [P ->].
      assert (P' : 0 <= (a * b - c ^ 2) / q). { unfold Rdiv in *. rewrite Rmult_assoc in P. apply (Rmult_le_reg_l (t ^ 2)); [apply pow_lt, Ht|]. rewrite Rmult_0_r. exact P. }
      apply rbind_iff. exists ((a * b - c ^ 2) / q). split; [apply fdiv_iff; auto|]. apply rbind_iff. exists (sqrt ((a * b - c ^ 2) / q)). split; [apply np_sqrt_iff; auto|].
      f_equal. apply (Rmult_eq_reg_l t); [|lra]. rewrite <- Hx. unfold Rdiv in *. rewrite (Rmult_assoc (t ^ 2)), (sqrt_mult (t ^ 2) ((a * b - c ^ 2) * / q)) by (try apply pow2_ge_0; exact P'). rewrite sqrt_pow2 by lra. ring.
Qed.
Lemma det_one th ph z f h rho a b c : smit_beljers 1 th ph z f h ->
  partial2 f rho (th 0%nat) (th 0%nat) a -> partial2 f rho (ph 0%nat) (ph 0%nat) b -> partial2 f rho (th 0%nat) (ph 0%nat) c ->
  partial2 f rho (ph 0%nat) (th 0%nat) c -> det2 h rho = (a * b - square c - square (z 0%nat rho), 0).
Proof.
  intros H Ha Hb Hc Hd. unfold smit_beljers in H. unfold det2, times. cbv zeta. cbn [fst snd].
  destruct (H 0%nat 0%nat rho ltac:(lia) ltac:(lia)) as (P00 & _ & _ & I00). destruct (H 1%nat 1%nat rho ltac:(lia) ltac:(lia)) as (P11 & _ & _ & I11).
  destruct (H 0%nat 1%nat rho ltac:(lia) ltac:(lia)) as (P01 & _ & I01 & _). destruct (H 1%nat 0%nat rho ltac:(lia) ltac:(lia)) as (P10 & I10 & _ & _).
  unfold coordinate in *. cbn [Nat.even Nat.div2] in *.
  rewrite (partial2_det _ _ _ _ _ _ P00 Ha), (partial2_det _ _ _ _ _ _ P11 Hb), (partial2_det _ _ _ _ _ _ P01 Hc), (partial2_det _ _ _ _ _ _ P10 Hd).
  rewrite I00, I11 by (intros; lia). rewrite (I01 0%nat), (I10 0%nat) by lia. unfold square. f_equal; ring.
Qed.

(** ** Coupled equations *)
Lemma steady_dot rho a b : defined rho (sx a) /\ defined rho (sy a) /\ defined rho (sz a) -> defined rho (sx b) /\ defined rho (sy b) /\ defined rho (sz b) -> defined rho (sdot a b).
Proof. cbn. tauto. Qed.
Lemma fold_defined {A} rho (step : sexpr -> A -> sexpr) (xs : list A) : (forall e a, defined rho e -> defined rho (step e a)) -> forall e, defined rho e -> defined rho (fold_left step xs e).
Proof. intros Hs. induction xs as [|x xs IH]; intros e He; [exact He|]. cbn. apply IH, Hs, He. Qed.
Lemma energy_defined s h vol E : steady h -> create_energy s (Some h) vol = Ok E -> forall rho, defined rho E.
Proof.
  intros Hs HE rho. unfold create_energy in HE. cbn [rbind] in HE. injection HE as <-. specialize (Hs rho).
  apply fold_defined; [intros e a He; unfold pair_energy; destruct (sv_dipole s); cbn; tauto|]. apply fold_defined; [|exact I].
  intros e l He. split; [exact He|]. split; [|exact I]. unfold no_interaction_symbolic_energy, ESq. cbn [defined]. unfold sb_hdmi. destruct (sb_Hdmi l); cbn; tauto.
Qed.
Lemma rhs_list_iff U osc ls fns : all_ok (map (layer_rhs U osc) ls) = Ok fns <->
  length fns = length ls /\ forall i l, nth_error ls i = Some l -> exists d, sb_dyn l = Some d /\ nth_error fns i = Some (rhs_spherical_llg l d (EDiv U (ENum (sb_thickness l))) osc).
Proof.
  revert fns. induction ls as [|l ls IH]; intros fns; cbn [map all_ok].
  - split; [intros H; injection H as <-; split; [reflexivity|intros [|i] l H; discriminate]|]. intros [H _]. destruct fns; [reflexivity|discriminate].
  - split.
    + intros H. apply rbind_iff in H. destruct H as [f [Hf H]]. apply rbind_iff in H. destruct H as [fs [Hfs H]]. injection H as <-. apply IH in Hfs. destruct Hfs as [L Hfs]. split; [cbn; congruence|].
      intros [|i] l' Hl; [injection Hl as <-|apply Hfs, Hl]. unfold layer_rhs in Hf. destruct (sb_dyn l) as [d|]; [|discriminate]. exists d. split; [reflexivity|]. cbn. congruence.
    + intros [L H]. destruct fns as [|f fns]; [discriminate|]. destruct (H 0%nat l eq_refl) as (d & Hd & Hf). cbn in Hf. injection Hf as ->. apply rbind_iff. exists (rhs_spherical_llg l d (EDiv U (ENum (sb_thickness l))) osc).
      split; [unfold layer_rhs; rewrite Hd; reflexivity|]. apply rbind_iff. exists fns. split; [|reflexivity]. apply IH. split; [cbn in L; lia|]. intros i l' Hl. apply (H (S i) l' Hl).
Qed.
Definition equations (fns : list (sexpr * sexpr)) : list sexpr := flat_map (fun f => [fst f; snd f]) fns.
Definition equation (fns : list (sexpr * sexpr)) (k : nat) : sexpr := nth k (equations fns) (ENum 0).
Lemma equation_even fns i : equation fns (2 * i) = fst (nth i fns (ENum 0, ENum 0)).
Proof.
  unfold equation, equations. revert i. induction fns as [|f fns IH]; intros i; [destruct (2 * i)%nat, i; reflexivity|]. destruct i as [|i]; [reflexivity|]. replace (2 * S i)%nat with (S (S (2 * i))) by lia. cbn [flat_map app nth]. apply IH.
Qed.
Lemma equation_odd fns i : equation fns (2 * i + 1) = snd (nth i fns (ENum 0, ENum 0)).
Proof.
  unfold equation, equations. revert i. induction fns as [|f fns IH]; intros i; [destruct (2 * i + 1)%nat, i; reflexivity|]. destruct i as [|i]; [reflexivity|]. replace (2 * S i + 1)%nat with (S (S (2 * i + 1))) by lia. cbn [flat_map app nth]. apply IH.
Qed.
Lemma equations_len fns : length (equations fns) = (2 * length fns)%nat.
Proof. unfold equations. induction fns as [|f fns IH]; [reflexivity|]. cbn [flat_map app length]. rewrite IH. lia. Qed.
Lemma div_defined rho U t : defined rho U -> t <> 0 -> defined rho (EDiv U (ENum t)).
Proof. intros. unfold EDiv. cbn. tauto. Qed.
Lemma rhs_defined l d U osc rho : defined rho U -> soft_sin (rho (sb_theta l)) <> 0 -> sb_Ms l <> 0 ->
  defined rho (fst (rhs_spherical_llg l d U osc)) /\ defined rho (snd (rhs_spherical_llg l d U osc)).
Proof.
  intros HU Hs Hm. pose proof (defined_diff U rho (sb_theta l) HU). pose proof (defined_diff U rho (sb_phi l) HU).
  unfold rhs_spherical_llg, torque, EDiv, ESub, ENeg, ESq. cbn [fst snd]. unfold soft_sin in Hs. unfold EPS. destruct osc; cbn; tauto.
Qed.
Lemma diff_div rho U t u : t <> 0 -> eval rho (diff (EDiv U (ENum t)) u) = eval rho (diff U u) / t.
Proof. intros Ht. unfold EDiv. cbn. field. exact Ht. Qed.
Lemma solver_motion s h osc U fns : steady h -> create_energy s (Some h) false = Ok U -> all_ok (map (layer_rhs U osc) (sv_layers s)) = Ok fns ->
  motion s (fun rho => field_at rho h) osc (fun k rho => eval rho (equation fns k)) /\
  forall rho, regular s rho -> forall k, (k < 2 * length (sv_layers s))%nat -> defined rho (equation fns k).
Proof.
  intros Hs HU Hf. apply rhs_list_iff in Hf. destruct Hf as [L Hf]. pose proof (energy_defined s h false U Hs HU) as DU.
  assert (EU : (fun r => eval r U) = (fun r => system_energy s (field_at r h) r)).
  { apply functional_extensionality. intros r. apply energy_eval in HU. destruct HU as (h' & Hh & HU). destruct Hh as [Hh|[Hh _]]; [|discriminate]. injection Hh as <-. apply HU. }
  assert (At : forall i, (i < length (sv_layers s))%nat -> exists d, sb_dyn (the_layer s i) = Some d /\ nth i fns (ENum 0, ENum 0) = rhs_spherical_llg (the_layer s i) d (EDiv U (ENum (sb_thickness (the_layer s i)))) osc).
  { intros i Hi. destruct (Hf i _ (layer_nth s i Hi)) as (d & Hd & Hn). exists d. split; [exact Hd|]. apply nth_error_nth, Hn. }
  split.
  - intros i Hi. destruct (At i Hi) as (d & Hd & Hn). exists d, (fun rho => eval rho (diff U (angle s (2 * i)))), (fun rho => eval rho (diff U (angle s (2 * i + 1)))). split; [exact Hd|]. split.
    + intros rho. rewrite <- EU. split; apply diff_partial, DU.
    + intros rho Hr. destruct (Hr i Hi) as (R1 & R2 & R3). rewrite equation_even, equation_odd, Hn, angle_theta, angle_phi.
      refine (proj2 (rhs_moves (the_layer s i) d (EDiv U (ENum (sb_thickness (the_layer s i)))) osc rho _ _ R1 R2 (div_defined _ _ _ (DU rho) R3) _ _ _) eq_refl).
      * refine (lim_eq _ _ _ _ (diff_partial _ rho _ (div_defined _ _ _ (DU rho) R3)) _). apply diff_div, R3.
      * refine (lim_eq _ _ _ _ (diff_partial _ rho _ (div_defined _ _ _ (DU rho) R3)) _). apply diff_div, R3.
  - intros rho Hr k Hk. assert (exists i x, k = (2 * i + x)%nat /\ (x < 2)%nat) as (i & x & -> & Hx).
    { exists (k / 2)%nat, (k mod 2)%nat. pose proof (Nat.div_mod_eq k 2). pose proof (Nat.mod_upper_bound k 2). lia. }
    assert (Hi : (i < length (sv_layers s))%nat) by lia. destruct (At i Hi) as (d & Hd & Hn). destruct (Hr i Hi) as (R1 & R2 & R3).
    pose proof (rhs_defined (the_layer s i) d (EDiv U (ENum (sb_thickness (the_layer s i)))) osc rho (div_defined _ _ _ (DU rho) R3) R1 R2) as [D1 D2].
    assert (Cx : x = 0%nat \/ x = 1%nat) by lia. destruct Cx as [-> | ->].
    + rewrite Nat.add_0_r, equation_even, Hn. exact D1.
    + rewrite equation_odd, Hn. exact D2.
Qed.
Lemma symbols_nth s c : (c < 2 * length (sv_layers s))%nat -> nth_error (llg_symbols s) c = Some (angle s c).
Proof.
  intros Hk. unfold llg_symbols, angle, the_layer, coordinate. revert c Hk. induction (sv_layers s) as [|l ls IH]; intros k Hk; [cbn in Hk; lia|].
  destruct k as [|[|k]]; [reflexivity..|]. cbn [flat_map app nth_error]. rewrite IH by (cbn [length] in Hk; lia). cbn [Nat.even Nat.div2 nth]. reflexivity.
Qed.
Lemma symbols_len s : length (llg_symbols s) = (2 * length (sv_layers s))%nat.
Proof. unfold llg_symbols. induction (sv_layers s) as [|l ls IH]; [reflexivity|]. cbn [flat_map app length]. rewrite IH. lia. Qed.
Lemma jacobian_spec s h J syms : steady h -> compose_llg_jacobian s h = Ok (J, syms) ->
  let n := (2 * length (sv_layers s))%nat in
  length J = n /\ length syms = n /\ (forall c, (c < n)%nat -> nth_error syms c = Some (angle s c)) /\
  exists F, motion s (fun rho => field_at rho h) false F /\
  forall r, (r < n)%nat -> exists row, nth_error J r = Some row /\ length row = n /\ forall c rho, (c < n)%nat -> regular s rho -> partial (F r) rho (angle s c) (eval rho (nth c row (ENum 0))).
Proof.
  intros Hs H. unfold compose_llg_jacobian in H. apply rbind_iff in H. destruct H as [U [HU H]]. apply rbind_iff in H. destruct H as [fns [Hf H]]. injection H as <- <-.
  destruct (solver_motion s h false U fns Hs HU Hf) as [M D]. apply rhs_list_iff in Hf. destruct Hf as [L _]. cbv zeta.
  fold (equations fns). rewrite map_length, equations_len, symbols_len, L. split; [reflexivity|]. split; [reflexivity|]. split; [apply symbols_nth|].
  exists (fun k rho => eval rho (equation fns k)). split; [exact M|]. intros r Hr. exists (map (diff (equation fns r)) (llg_symbols s)). split; [|split].
  - apply (map_nth_error (fun f => map (diff f) (llg_symbols s))). apply nth_error_nth'. rewrite equations_len, L. exact Hr.
  - rewrite map_length. apply symbols_len.
  - intros c rho Hc Hreg. rewrite (nth_error_nth _ _ (ENum 0) (map_nth_error (diff (equation fns r)) _ _ (symbols_nth s c Hc))). apply diff_partial, D; assumption.
Qed.
Lemma jacobian_ok s h : (exists r, compose_llg_jacobian s h = Ok r) <-> forall l, In l (sv_layers s) -> sb_dyn l <> None.
Proof.
  unfold compose_llg_jacobian. destruct (proj2 (energy_ok s (Some h) false) ltac:(left; discriminate)) as [U HU]. rewrite HU. cbn [rbind]. generalize (llg_symbols s). intros sy. split.
  - intros [r H]. apply rbind_iff in H. destruct H as [fns [H _]]. apply rhs_list_iff in H. destruct H as [_ H]. intros l Hl. apply In_nth_error in Hl. destruct Hl as [i Hi]. destruct (H i l Hi) as (d & Hd & _). congruence.
  - intros H. enough (exists fns, all_ok (map (layer_rhs U false) (sv_layers s)) = Ok fns) as [fns Hf] by (rewrite Hf; cbn; eauto).
    induction (sv_layers s) as [|l ls IH]; [cbn; eauto|]. destruct IH as [fns Hf]; [intros; apply H; right; assumption|]. cbn [map all_ok]. rewrite Hf. unfold layer_rhs. destruct (sb_dyn l) as [d|] eqn:Hd; [cbn; eauto|]. exfalso. apply (H l); [left; reflexivity|exact Hd].
Qed.
