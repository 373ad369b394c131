(** Domain wall model: proofs. *)
From Verif Require Export S_DW.
From Verif Require Import P_Sym P_Resist P_Geom.
From Coq Require Import Psatz.
Open Scope R_scope.
Open Scope st_scope.

Lemma div_iff a b q : py_div a b = Ok q <-> b <> 0 /\ q = a / b.
Proof. unfold py_div. destruct (Req_EM_T b 0); split; try discriminate; try tauto. - intros H. injection H as <-. tauto. - intros [_ ->]. reflexivity. Qed.
Lemma fdiv_iff' a b q : fdiv a b = Ok q <-> b <> 0 /\ q = a / b.
Proof. unfold fdiv. destruct (Req_EM_T b 0); split; try discriminate; try tauto. - intros H. injection H as <-. tauto. - intros [_ ->]. reflexivity. Qed.
Lemma msqrt_iff x y : math_sqrt x = Ok y <-> 0 <= x /\ y = sqrt x.
Proof. unfold math_sqrt. destruct (Rlt_dec x 0) as [L|L]; split; try discriminate. - intros [H _]. lra. - intros H. injection H as <-. split; [lra|reflexivity]. - intros [_ ->]. reflexivity. Qed.
Lemma row_at {A} (l : list A) i d x : row_ l i = Ok x <-> (i < length l)%nat /\ x = nth i l d.
Proof.
  unfold row_. destruct (nth_error l i) as [y|] eqn:E; split.
  - intros H. injection H as <-. split; [apply nth_error_Some; congruence|]. symmetry. apply nth_error_nth, E.
  - intros [_ ->]. f_equal. symmetry. apply nth_error_nth, E.
  - discriminate.
  - intros [H _]. apply nth_error_None in E. lia.
Qed.
Lemma ok_iff {A} (x y : A) : Ok x = Ok y <-> y = x.
Proof. split; [intros H; injection H; auto|intros ->; reflexivity]. Qed.
Lemma mu0_pos : 0 < dw_mu0. Proof. unfold dw_mu0. lra. Qed.
Lemma gyro_pos : 0 < gyro. Proof. unfold gyro. lra. Qed.

(** ** Derivatives *)
Lemma dl_plus f g x a b : derivable_pt_lim f x a -> derivable_pt_lim g x b -> derivable_pt_lim (fun y => f y + g y) x (a + b).
Proof. intros. apply (derivable_pt_lim_plus f g); assumption. Qed.
Lemma dl_minus f g x a b : derivable_pt_lim f x a -> derivable_pt_lim g x b -> derivable_pt_lim (fun y => f y - g y) x (a - b).
Proof. intros. apply (derivable_pt_lim_minus f g); assumption. Qed.
Lemma dl_opp f x a : derivable_pt_lim f x a -> derivable_pt_lim (fun y => - f y) x (- a).
Proof. intros. apply (derivable_pt_lim_opp f); assumption. Qed.
Lemma dl_mult f g x a b : derivable_pt_lim f x a -> derivable_pt_lim g x b -> derivable_pt_lim (fun y => f y * g y) x (a * g x + f x * b).
Proof. intros. apply (derivable_pt_lim_mult f g); assumption. Qed.
Lemma dl_const c x : derivable_pt_lim (fun _ => c) x 0. Proof. apply derivable_pt_lim_const. Qed.
Lemma dl_id x : derivable_pt_lim (fun y => y) x 1. Proof. apply derivable_pt_lim_id. Qed.
Lemma dl_scal k f x a : derivable_pt_lim f x a -> derivable_pt_lim (fun y => k * f y) x (k * a).
Proof. intros H. apply (derivable_pt_lim_scal f k x a H). Qed.
Lemma dl_sin f x a : derivable_pt_lim f x a -> derivable_pt_lim (fun y => sin (f y)) x (cos (f x) * a).
Proof. intros H. apply (derivable_pt_lim_comp f sin x a (cos (f x)) H). apply derivable_pt_lim_sin. Qed.
Lemma dl_cos f x a : derivable_pt_lim f x a -> derivable_pt_lim (fun y => cos (f y)) x (- sin (f x) * a).
Proof. intros H. apply (derivable_pt_lim_comp f cos x a (- sin (f x)) H). apply derivable_pt_lim_cos. Qed.
Lemma dl_cosh f x a : derivable_pt_lim f x a -> derivable_pt_lim (fun y => cosh (f y)) x (sinh (f x) * a).
Proof. intros H. apply (derivable_pt_lim_comp f cosh x a (sinh (f x)) H). apply derivable_pt_lim_cosh. Qed.
Lemma dl_pow f n x a : derivable_pt_lim f x a -> derivable_pt_lim (fun y => f y ^ n) x (INR n * f x ^ pred n * a).
Proof. intros H. apply (derivable_pt_lim_comp f (fun z => z ^ n) x a (INR n * f x ^ pred n) H). apply derivable_pt_lim_pow. Qed.
Lemma dl_div f c x a : derivable_pt_lim f x a -> derivable_pt_lim (fun y => f y / c) x (a / c).
Proof. intros H. unfold Rdiv. apply (lim_ext (fun y => / c * f y)); [intros; ring|]. apply (lim_eq _ x (/ c * a)); [|ring]. apply dl_scal, H. Qed.
Ltac dlim := repeat (cbv beta; lazymatch goal with
  | |- derivable_pt_lim (fun _ => ?c) _ _ => apply dl_const
  | |- derivable_pt_lim (fun y => y) _ _ => apply dl_id
  | |- derivable_pt_lim (fun y => @?f y + @?g y) _ _ => apply (dl_plus f g)
  | |- derivable_pt_lim (fun y => @?f y - @?g y) _ _ => apply (dl_minus f g)
  | |- derivable_pt_lim (fun y => - @?f y) _ _ => apply (dl_opp f)
  | |- derivable_pt_lim (fun y => @?f y / ?c) _ _ => apply (dl_div f c)
  | |- derivable_pt_lim (fun y => @?f y * @?g y) _ _ => apply (dl_mult f g)
  | |- derivable_pt_lim (fun y => sin (@?f y)) _ _ => apply (dl_sin f)
  | |- derivable_pt_lim (fun y => cos (@?f y)) _ _ => apply (dl_cos f)
  | |- derivable_pt_lim (fun y => cosh (@?f y)) _ _ => apply (dl_cosh f)
  | |- derivable_pt_lim (fun y => (@?f y) ^ ?n) _ _ => apply (dl_pow f n)
  end).

Definition pin_scale (a : wall_args) : R := 2 * dw_mu0 * wa_Ms a * wa_Ly a * wa_Lz a.
Definition angle_slope (w : wall) (hk delta phi : R) : R :=
  let a := w_args w in
  - (1 / 2) * hk * sin (2 * phi) - PI / 2 * cy (w_h w) * cos phi + PI / 2 * cx (w_h w) * sin phi + wa_Q a * (PI / 2) * (wa_D a / (dw_mu0 * wa_Ms a * delta)) * sin phi.
Definition place_slope (w : wall) (X : R) : R :=
  let a := w_args w in let c := wa_Lx a / 2 in
  cz (w_h w) - 6 * wa_V0_edge a * (sinh ((X - c) / c) * cosh ((X - c) / c) ^ 5 / c) - 1 / pin_scale a * (2 * PI * wa_V0_pin a * sin (X * PI / wa_pinning a) * cos (X * PI / wa_pinning a)).
Lemma angle_lim w hk delta X o k phi : derivable_pt_lim (fun p => wall_energy w hk delta X p - k * cos (p - o)) phi (angle_slope w hk delta phi + k * sin (phi - o)).
Proof.
  unfold wall_energy, angle_energy, angle_slope. cbv zeta. eapply lim_eq; [dlim|]. cbv beta. set (q := wa_D _ / _). field.
Qed.
Lemma angle_lim0 w hk delta X phi : derivable_pt_lim (fun p => wall_energy w hk delta X p - 0) phi (angle_slope w hk delta phi).
Proof. eapply lim_eq; [apply (lim_ext (fun p => wall_energy w hk delta X p - 0 * cos (p - 0))); [intros; ring|apply angle_lim]|]. ring. Qed.
Lemma place_lim w hk delta phi X : wa_pinning (w_args w) <> 0 -> wa_Lx (w_args w) <> 0 -> wa_Ms (w_args w) <> 0 -> wa_Ly (w_args w) <> 0 -> wa_Lz (w_args w) <> 0 ->
  derivable_pt_lim (fun x => wall_energy w hk delta x phi) X (- wa_Q (w_args w) * place_slope w X / delta).
Proof.
  intros P L M Y Z. pose proof mu0_pos. unfold wall_energy, place_energy, place_slope, pin_scale. cbv zeta. eapply lim_eq; [dlim|]. cbv beta. cbn [pred INR].
  replace (PI * X / wa_pinning (w_args w)) with (X * PI / wa_pinning (w_args w)) by (unfold Rdiv; ring). set (s := sin (X * PI / wa_pinning (w_args w))). set (c := cos (X * PI / wa_pinning (w_args w))). set (sh := sinh _). set (ch := cosh _). unfold Rdiv.
  rewrite ?Rmult_0_l, ?Rplus_0_l, ?Rplus_0_r. set (di := / delta). field. repeat split; try assumption; lra.
Qed.

(** ** Compiled helpers *)
Lemma pinning_iff X Ms pin Ly Lz V r : get_pinning_field X Ms pin Ly Lz V = Ok r <->
  pin <> 0 /\ Ms <> 0 /\ Ly <> 0 /\ Lz <> 0 /\ r = - (1 / (2 * dw_mu0 * Ms * Ly * Lz)) * (2 * PI * V * sin (X * PI / pin) * cos (X * PI / pin)).
Proof.
  unfold get_pinning_field. pose proof mu0_pos as Mu. split.
  - intros H. apply rbind_iff in H. destruct H as [g [G H]]. apply div_iff in G. destruct G as [Np ->]. apply rbind_iff in H. destruct H as [q [Q H]]. apply div_iff in Q. destruct Q as [Nq ->]. injection H as <-.
    assert (Ms <> 0 /\ Ly <> 0 /\ Lz <> 0) as (A1 & A2 & A3) by (repeat split; intros ->; apply Nq; ring). repeat (split; [assumption|]). replace (2 * dw_mu0 * Ms * Lz * Ly) with (2 * dw_mu0 * Ms * Ly * Lz) by ring. reflexivity.
  - intros (Np & NM & NY & NZ & ->). assert (Nq : 2 * dw_mu0 * Ms * Lz * Ly <> 0) by (repeat apply Rmult_integral_contrapositive_currified; try assumption; lra).
    rewrite (proj2 (div_iff _ _ _) (conj Np eq_refl)). cbn [rbind]. rewrite (proj2 (div_iff _ _ _) (conj Nq eq_refl)). cbn [rbind]. replace (2 * dw_mu0 * Ms * Lz * Ly) with (2 * dw_mu0 * Ms * Ly * Lz) by ring. reflexivity.
Qed.
Lemma edge_iff X Lx V r : get_edge_field X Lx V = Ok r <->
  Lx <> 0 /\ let c := Lx / 2 in r = - 6 * V * (sinh ((X - c) / c) * cosh ((X - c) / c) ^ 5 / c).
Proof.
  unfold get_edge_field. split.
  - intros H. apply rbind_iff in H. destruct H as [g [G H]]. apply div_iff in G. destruct G as [N ->]. apply rbind_iff in H. destruct H as [q [Q H]]. apply div_iff in Q. destruct Q as [_ ->]. injection H as <-. split; [intros ->; apply N; field|reflexivity].
  - intros [N ->]. assert (N2 : Lx / 2 <> 0) by lra. rewrite (proj2 (div_iff _ _ _) (conj N2 eq_refl)). cbn [rbind]. rewrite (proj2 (div_iff _ _ _) (conj N2 eq_refl)). reflexivity.
Qed.
Lemma gamma_a_iff phi Q dw hk hx hy hdmi bj iec r : compute_gamma_a phi Q dw hk hx hy hdmi bj iec = Ok r <->
  dw <> 0 /\ r = gyro * (- (1 / 2) * hk * sin (2 * phi) - PI / 2 * hy * cos phi + PI / 2 * hx * sin phi + Q * (PI / 2) * hdmi * sin phi + iec) + bj / dw.
Proof.
  unfold compute_gamma_a. split.
  - intros H. apply rbind_iff in H. destruct H as [g [G H]]. apply div_iff in G. destruct G as [N ->]. injection H as <-. tauto.
  - intros [N ->]. rewrite (proj2 (div_iff _ _ _) (conj N eq_refl)). reflexivity.
Qed.
Lemma gamma_b_iff w X phi dw hshe bj r : let a := w_args w in
  compute_gamma_b X phi (wa_Q a) dw hshe (cz (w_h w)) (wa_Hr a) (wa_beta a) bj (wa_Ms a) (wa_Lx a) (wa_Ly a) (wa_Lz a) (wa_V0_pin a) (wa_V0_edge a) (wa_pinning a) = Ok r <->
  dw <> 0 /\ wa_pinning a <> 0 /\ wa_Ms a <> 0 /\ wa_Ly a <> 0 /\ wa_Lz a <> 0 /\ wa_Lx a <> 0 /\
  r = gyro * (wa_Q a * (place_slope w X + PI / 2 * hshe * cos phi) - wa_beta a * (PI / 2) * wa_Hr a * cos phi) + wa_beta a * bj / dw.
Proof.
  intros a. unfold compute_gamma_b. split.
  - intros H. apply rbind_iff in H. destruct H as [g [G H]]. apply pinning_iff in G. destruct G as (N1 & N2 & N3 & N4 & ->). apply rbind_iff in H. destruct H as [e [E H]]. apply edge_iff in E. destruct E as [N5 E]. cbv zeta in E. subst e.
    apply rbind_iff in H. destruct H as [q [Q H]]. apply div_iff in Q. destruct Q as [N6 ->]. injection H as <-. repeat (split; [assumption|]). unfold place_slope, pin_scale. fold a. cbv zeta. set (sh := sinh _). set (ch := cosh _). unfold Rdiv. ring.
  - intros (N1 & N2 & N3 & N4 & N5 & N6 & ->).
    rewrite (proj2 (pinning_iff _ _ _ _ _ _ _) (conj N2 (conj N3 (conj N4 (conj N5 eq_refl))))). cbn [rbind]. rewrite (proj2 (edge_iff _ _ _ _) (conj N6 eq_refl)). cbn [rbind]. rewrite (proj2 (div_iff _ _ _) (conj N1 eq_refl)). cbn [rbind]. apply f_equal.
    unfold place_slope, pin_scale. fold a. cbv zeta. ring.
Qed.
Definition width_rate (a : wall_args) (phi delta : R) : R := gyro / (wa_alpha a * dw_mu0 * wa_Ms a * wa_thickness a) * (wa_A a / delta - delta * (wa_Ku a + wa_Kp a * sin phi ^ 2)).
Definition ga_of (w : wall) (hk delta phi iec u : R) : R := gyro * (angle_slope w hk delta phi + iec) + u / delta.
Definition gb_of (w : wall) (delta X phi hshe u : R) : R :=
  gyro * (wa_Q (w_args w) * (place_slope w X + PI / 2 * hshe * cos phi) - wa_beta (w_args w) * (PI / 2) * wa_Hr (w_args w) * cos phi) + wa_beta (w_args w) * u / delta.
Lemma dynamics_iff w X phi delta hk hshe u iec r : let a := w_args w in
  compute_dynamics a (w_h w) X phi delta hk (wa_D a / (dw_mu0 * wa_Ms a * delta)) hshe u iec = Ok r <->
  delta <> 0 /\ wa_alpha a <> 0 /\ wa_Ms a <> 0 /\ wa_thickness a <> 0 /\ wa_pinning a <> 0 /\ wa_Lx a <> 0 /\ wa_Ly a <> 0 /\ wa_Lz a <> 0 /\
  r = (delta * (ga_of w hk delta phi iec u + wa_alpha a * gb_of w delta X phi hshe u), - wa_alpha a * ga_of w hk delta phi iec u + gb_of w delta X phi hshe u, width_rate a phi delta).
Proof.
  intros a. unfold compute_dynamics. pose proof mu0_pos as Mu. split.
  - intros H. apply rbind_iff in H. destruct H as [g [G H]]. apply gamma_a_iff in G. destruct G as (N1 & ->). apply rbind_iff in H. destruct H as [e [E H]]. apply (gamma_b_iff w) in E. destruct E as (_ & N2 & N3 & N4 & N5 & N6 & ->).
    apply rbind_iff in H. destruct H as [q [Q H]]. apply div_iff in Q. destruct Q as [N7 ->]. apply rbind_iff in H. destruct H as [z [Z H]]. apply div_iff in Z. destruct Z as [_ ->]. injection H as <-.
    assert (wa_alpha a <> 0 /\ wa_thickness a <> 0) as (A1 & A2) by (split; intros E; apply N7; rewrite E; ring). repeat (split; [assumption|]). reflexivity.
  - intros (N1 & N2 & N3 & N4 & N5 & N6 & N7 & N8 & ->). assert (N9 : wa_alpha a * dw_mu0 * wa_Ms a * wa_thickness a <> 0) by (repeat apply Rmult_integral_contrapositive_currified; try assumption; lra).
    rewrite (proj2 (gamma_a_iff _ _ _ _ _ _ _ _ _ _) (conj N1 eq_refl)). cbn [rbind]. rewrite (proj2 (gamma_b_iff w _ _ _ _ _ _) (conj N1 (conj N5 (conj N3 (conj N7 (conj N8 (conj N6 eq_refl))))))). cbn [rbind].
    rewrite (proj2 (div_iff _ _ _) (conj N9 eq_refl)). cbn [rbind]. rewrite (proj2 (div_iff _ _ _) (conj N1 eq_refl)). reflexivity.
Qed.

(** ** Rates *)
Definition iec (J : R) (w : wall) (phi : R) (o : option R) : R := match o with None => 0 | Some x => coupling_field J w * sin (phi - x) end.
Lemma one_alpha2 a : 1 + a ^ 2 <> 0. Proof. pose proof (pow2_ge_0 a). lra. Qed.
Lemma np_other vec i o : (3 * i + 2 < length vec)%nat -> np_at vec (3 * (Z.of_nat i - 1) + 1) = Ok o <-> o = match i with O => nth (length vec - 2) vec 0 | S k => nth (3 * k + 1) vec 0 end.
Proof.
  intros L. unfold np_at. destruct i as [|k].
  - change (3 * (Z.of_nat 0 - 1) + 1)%Z with (-2)%Z. change (-2 <? 0)%Z with true. cbv iota.
    destruct (Z.ltb_spec (-2 + Z.of_nat (length vec)) 0) as [C|C]; [lia|]. rewrite (row_at vec _ 0 o). replace (Z.to_nat (-2 + Z.of_nat (length vec))) with (length vec - 2)%nat by lia. split; [tauto|]. intros ->. split; [lia|reflexivity].
  - destruct (Z.ltb_spec (3 * (Z.of_nat (S k) - 1) + 1) 0) as [C|C]; [lia|]. rewrite (row_at vec _ 0 o). replace (Z.to_nat (3 * (Z.of_nat (S k) - 1) + 1)) with (3 * k + 1)%nat by lia. split; [tauto|]. intros ->. split; [lia|reflexivity].
Qed.
Definition rates (n : nat) (J t : R) (vec : list R) (i : nat) (w : wall) (hk : R) : R * R * R :=
  let a := w_args w in
  let X := nth (3 * i) vec 0 in let phi := nth (3 * i + 1) vec 0 in let delta := nth (3 * i + 2) vec 0 in
  let ga := ga_of w hk delta phi (iec J w phi (neighbour n i vec)) (w_bj w * w_je w t) in let gb := gb_of w delta X phi (w_Hshe w * w_je w t) (w_bj w * w_je w t) in
  (delta * (ga + wa_alpha a * gb) / (1 + wa_alpha a ^ 2), (- wa_alpha a * ga + gb) / (1 + wa_alpha a ^ 2), if is_dynamic_width (wa_relax a) then width_rate a phi delta else 0).
Lemma wall_llg_iff n J t vec i w r : wall_llg n J t vec i w = Ok r <->
  (3 * i + 2 < length vec)%nat /\ usable w (nth (3 * i + 2) vec 0) /\ exists hk, w_Hk w = Some hk /\ r = rates n J t vec i w hk.
Proof.
  unfold wall_llg, usable. set (a := w_args w). pose proof mu0_pos as Mu. split.
  - intros H. apply rbind_iff in H. destruct H as [X [HX H]]. apply (row_at vec _ 0) in HX. destruct HX as [_ ->]. apply rbind_iff in H. destruct H as [phi [HP H]]. apply (row_at vec _ 0) in HP. destruct HP as [_ ->].
    apply rbind_iff in H. destruct H as [d [HD H]]. apply (row_at vec _ 0) in HD. destruct HD as [L ->]. apply rbind_iff in H. destruct H as [jt [HJ H]]. apply rbind_iff in H. destruct H as [hd [Hh H]]. apply fdiv_iff' in Hh. destruct Hh as [_ ->].
    apply rbind_iff in H. destruct H as [hk [Hk H]]. apply rbind_iff in H. destruct H as [q [HQ H]]. apply (dynamics_iff w) in HQ. destruct HQ as (N1 & N2 & N3 & N4 & N5 & N6 & N7 & N8 & ->). injection H as <-.
    destruct (w_Hk w) as [k|]; [|discriminate]. injection Hk as <-. split; [exact L|]. split; [repeat split; try assumption; discriminate|]. exists k. split; [reflexivity|].
    assert (E : jt = iec J w (nth (3 * i + 1) vec 0) (neighbour n i vec)).
    { unfold iec, neighbour. destruct (Nat.eqb n 1); [injection HJ as <-; reflexivity|]. apply rbind_iff in HJ. destruct HJ as [q [Q HJ]]. apply div_iff in Q. destruct Q as [_ ->]. apply rbind_iff in HJ. destruct HJ as [o [O HJ]]. apply (np_other vec i o L) in O. injection HJ as <-. rewrite <- O. unfold coupling_field. fold a.
      replace (wa_Ms a * dw_mu0 * wa_thickness a) with (dw_mu0 * wa_Ms a * wa_thickness a) by ring. reflexivity. }
    rewrite E. reflexivity.
  - intros (L & (N0 & N1 & N2 & N3 & N4 & N5 & N6 & N7 & N8) & hk & Hk & ->). fold a in N2, N3, N4, N5, N6, N7, N8.
    assert (L0 : (3 * i < length vec)%nat) by lia. assert (L1 : (3 * i + 1 < length vec)%nat) by lia.
    rewrite (proj2 (row_at vec (3 * i) 0 _) (conj L0 eq_refl)). cbn [rbind]. rewrite (proj2 (row_at vec (3 * i + 1) 0 _) (conj L1 eq_refl)). cbn [rbind]. rewrite (proj2 (row_at vec (3 * i + 2) 0 _) (conj L eq_refl)). cbn [rbind].
    assert (E : (if Nat.eqb n 1 then Ok 0 else q <-- py_div (2 * J) (wa_Ms a * dw_mu0 * wa_thickness a) ;; other <-- np_at vec (3 * (Z.of_nat i - 1) + 1) ;; Ok (q * sin (nth (3 * i + 1) vec 0 - other))) = Ok (iec J w (nth (3 * i + 1) vec 0) (neighbour n i vec))).
    { unfold iec, neighbour. destruct (Nat.eqb n 1); [reflexivity|]. assert (Nz : wa_Ms a * dw_mu0 * wa_thickness a <> 0) by (repeat apply Rmult_integral_contrapositive_currified; try assumption; lra).
      rewrite (proj2 (div_iff _ _ _) (conj Nz eq_refl)). cbn [rbind]. rewrite (proj2 (np_other vec i _ L) eq_refl). cbn [rbind]. apply f_equal. unfold coupling_field. fold a. replace (wa_Ms a * dw_mu0 * wa_thickness a) with (dw_mu0 * wa_Ms a * wa_thickness a) by ring. reflexivity. }
    rewrite E. cbn [rbind]. unfold get_Hdmi. assert (Nh : dw_mu0 * wa_Ms a * nth (3 * i + 2) vec 0 <> 0) by (repeat apply Rmult_integral_contrapositive_currified; try assumption; lra).
    rewrite (proj2 (fdiv_iff' _ _ _) (conj Nh eq_refl)). cbn [rbind]. rewrite Hk. cbn [rbind].
    rewrite (proj2 (dynamics_iff w _ _ _ _ _ _ _ _) (conj N1 (conj N2 (conj N3 (conj N4 (conj N5 (conj N6 (conj N7 (conj N8 eq_refl))))))))). reflexivity.
Qed.
Lemma walls_llg_iff n J t vec ws : forall i out, walls_llg n J t vec i ws = Ok out <->
  length out = (3 * length ws)%nat /\ forall k w, nth_error ws k = Some w -> wall_llg n J t vec (i + k) w = Ok (nth (3 * k) out 0, nth (3 * k + 1) out 0, nth (3 * k + 2) out 0).
Proof.
  induction ws as [|w ws IH]; intros i out; cbn [walls_llg].
  - split; [intros H; injection H as <-; split; [reflexivity|intros [|k] ?; discriminate]|]. intros [L _]. destruct out; [reflexivity|discriminate].
  - split.
    + intros H. apply rbind_iff in H. destruct H as [d [HD H]]. apply rbind_iff in H. destruct H as [rest [HR H]]. destruct d as [[x p] q]. injection H as <-. apply IH in HR. destruct HR as [L HR]. split; [cbn [length]; lia|].
      intros [|k] w' Hw; [injection Hw as <-; rewrite Nat.add_0_r; exact HD|]. replace (i + S k)%nat with (S i + k)%nat by lia. replace (3 * S k)%nat with (S (S (S (3 * k)))) by lia. exact (HR k w' Hw).
    + intros [L H]. cbn [length] in L. destruct out as [|x [|p [|q rest]]]; try (cbn in L; lia).
      pose proof (H 0%nat w eq_refl) as H0. rewrite Nat.add_0_r in H0. cbn [nth Nat.mul Nat.add] in H0. rewrite H0. cbn [rbind].
      assert (HR : walls_llg n J t vec (S i) ws = Ok rest). { apply IH. split; [cbn [length] in L; lia|]. intros k w' Hw. specialize (H (S k) w' Hw). replace (i + S k)%nat with (S i + k)%nat in H by lia. replace (3 * S k)%nat with (S (S (S (3 * k)))) in H by lia. exact H. }
      rewrite HR. reflexivity.
Qed.
Lemma llg_iff ws t vec out : multilayer_dw_llg ws t vec = Ok out <->
  length out = (3 * length (ws_layers ws))%nat /\ forall i w, nth_error (ws_layers ws) i = Some w ->
    (3 * i + 2 < length vec)%nat /\ usable w (nth (3 * i + 2) vec 0) /\
    exists hk, w_Hk w = Some hk /\ (nth (3 * i) out 0, nth (3 * i + 1) out 0, nth (3 * i + 2) out 0) = rates (length (ws_layers ws)) (ws_J ws) t vec i w hk.
Proof.
  unfold multilayer_dw_llg. rewrite walls_llg_iff. split; intros [L H]; (split; [exact L|]); intros i w Hw; specialize (H i w Hw); cbn [Nat.add] in *; [apply wall_llg_iff in H; exact H|apply wall_llg_iff; exact H].
Qed.
(** The rates are the unique solution of the coupled equations. *)
Lemma equations_iff J other w je hk X phi delta vX vphi : usable w delta ->
  wall_equations J other w je hk X phi delta vX vphi <->
  let ga := ga_of w hk delta phi (iec J w phi other) (w_bj w * je) in let gb := gb_of w delta X phi (w_Hshe w * je) (w_bj w * je) in
  vX = delta * (ga + wa_alpha (w_args w) * gb) / (1 + wa_alpha (w_args w) ^ 2) /\ vphi = (- wa_alpha (w_args w) * ga + gb) / (1 + wa_alpha (w_args w) ^ 2).
Proof.
  intros (N0 & N1 & N2 & N3 & N4 & N5 & N6 & N7 & N8). set (a := w_args w) in *. cbv zeta. set (u := w_bj w * je). set (hs := w_Hshe w * je).
  assert (P1 : derivable_pt_lim (fun p => wall_energy w hk delta X p - match other with None => 0 | Some o => coupling_field J w * cos (p - o) end) phi (angle_slope w hk delta phi + iec J w phi other)).
  { unfold iec. destruct other as [o|]; [apply angle_lim|]. rewrite Rplus_0_r. apply angle_lim0. }
  assert (P2 : derivable_pt_lim (fun x => wall_energy w hk delta x phi) X (- wa_Q a * place_slope w X / delta)) by (apply place_lim; assumption).
  pose proof (one_alpha2 (wa_alpha a)) as NA.
  assert (G : ga_of w hk delta phi (iec J w phi other) u = gyro * (angle_slope w hk delta phi + iec J w phi other) + u / delta) by reflexivity.
  assert (B : gb_of w delta X phi hs u = - gyro * delta * (- wa_Q a * place_slope w X / delta) + gyro * (PI / 2) * (wa_Q a * hs - wa_beta a * wa_Hr a) * cos phi + wa_beta a * u / delta) by (unfold gb_of; fold a; field; exact N1).
  unfold wall_equations. cbv zeta. fold a u hs. split.
  - intros (ep & ex & D1 & D2 & E1 & E2). pose proof (uniqueness_limite _ _ _ _ D1 P1) as ->. pose proof (uniqueness_limite _ _ _ _ D2 P2) as ->. rewrite <- G in E1. rewrite <- B in E2. rewrite <- E1, <- E2. split; field; split; try exact N1; replace (wa_alpha a * wa_alpha a) with (wa_alpha a ^ 2) by ring; lra.
  - intros [-> ->]. exists (angle_slope w hk delta phi + iec J w phi other), (- wa_Q a * place_slope w X / delta). split; [exact P1|]. split; [exact P2|]. rewrite <- G, <- B. split; field; repeat split; try exact N1; lra.
Qed.

Lemma width_lim a phi delta : delta <> 0 -> derivable_pt_lim (fun d => wa_A a / d + d * (wa_Ku a + wa_Kp a * (sin phi * sin phi))) delta (- wa_A a / (delta * delta) + (wa_Ku a + wa_Kp a * (sin phi * sin phi))).
Proof.
  intros N. apply (lim_ext (fun d => wa_A a * / d + (wa_Ku a + wa_Kp a * (sin phi * sin phi)) * d)); [intros; unfold Rdiv; ring|].
  eapply lim_eq; [apply dl_plus; [apply dl_scal; apply (derivable_pt_lim_comp (fun y => y) Rinv delta 1 (- / (delta * delta))); [apply dl_id|]|apply dl_scal; apply dl_id]|].
  - eapply lim_eq; [apply (lim_ext (fun x => 1 / x)); [intros; unfold Rdiv; ring|]; apply (derivable_pt_lim_div (fun _ => 1) (fun x => x) delta 0 1); [apply dl_const|apply dl_id|exact N]|]. unfold Rsqr. field. exact N.
  - field. exact N.
Qed.
Lemma width_iff w delta phi v : usable w delta -> width_equation (w_args w) phi delta v <-> v = width_rate (w_args w) phi delta.
Proof.
  intros (N0 & N1 & N2 & N3 & N4 & N5 & N6 & N7 & N8). set (a := w_args w) in *. pose proof mu0_pos as Mu. unfold width_equation, width_rate.
  assert (NP : wa_alpha a * dw_mu0 * wa_Ms a * wa_thickness a <> 0) by (repeat apply Rmult_integral_contrapositive_currified; try assumption; lra). split.
  - intros (s & D & E). pose proof (uniqueness_limite _ _ _ _ D (width_lim a phi delta N1)) as ->. apply (Rmult_eq_reg_l (wa_alpha a * dw_mu0 * wa_Ms a * wa_thickness a)); [|exact NP]. rewrite E. field. repeat split; try assumption; lra.
  - intros ->. eexists. split; [apply width_lim, N1|]. field. repeat split; try assumption; lra.
Qed.
Lemma move_iff ws t vec out : multilayer_dw_llg ws t vec = Ok out <-> walls_move ws t vec out.
Proof.
  rewrite llg_iff. unfold walls_move. split; intros [L H]; (split; [exact L|]); intros i w Hw; destruct (H i w Hw) as (L2 & U & hk & Hk & E); (split; [exact L2|]); (split; [exact U|]); exists hk; (split; [exact Hk|]).
  - unfold rates in E. pose proof (f_equal (fun q => fst (fst q)) E) as E1. pose proof (f_equal (fun q => snd (fst q)) E) as E2. pose proof (f_equal snd E) as E3. cbn [fst snd] in E1, E2, E3. split; [apply equations_iff; [exact U|]; cbv zeta; split; [exact E1|exact E2]|]. rewrite E3. destruct (wa_relax (w_args w)); try reflexivity. apply width_iff; [exact U|reflexivity].
  - destruct E as [E1 E2]. apply equations_iff in E1; [|exact U]. cbv zeta in E1. destruct E1 as [E1 E3]. unfold rates. rewrite E1, E3. f_equal. destruct (wa_relax (w_args w)); cbn [is_dynamic_width]; try exact E2. apply (width_iff w _ _ _ U), E2.
Qed.

(** ** Dissipation *)
Lemma along_wall w hk delta X phi vX vphi : usable w delta ->
  derivable_pt_lim (fun s => wall_energy w hk delta (X + s * vX) (phi + s * vphi)) 0 (angle_slope w hk delta phi * vphi - wa_Q (w_args w) * place_slope w X / delta * vX).
Proof.
  intros (N0 & N1 & N2 & N3 & N4 & N5 & N6 & N7 & N8).
  assert (L1 : derivable_pt_lim (fun s => X + s * vX) 0 vX) by (eapply lim_eq; [dlim|cbv beta; ring]). assert (L2 : derivable_pt_lim (fun s => phi + s * vphi) 0 vphi) by (eapply lim_eq; [dlim|cbv beta; ring]).
  pose proof (angle_lim0 w hk delta X phi) as A1. pose proof (place_lim w hk delta phi X N5 N6 N3 N7 N8) as A2.
  assert (E1 : phi + 0 * vphi = phi) by ring. assert (E2 : X + 0 * vX = X) by ring.
  pose proof (lim_comp _ _ _ _ _ _ E1 L2 A1) as B1. pose proof (lim_comp _ _ _ _ _ _ E2 L1 A2) as B2.
  pose proof (dl_minus _ _ _ _ _ (dl_plus _ _ _ _ _ B1 B2) (dl_const (wall_energy w hk delta X phi) 0)) as B. eapply lim_eq; [eapply lim_ext; [|exact B]|]; [|unfold Rdiv; ring].
  intros s. cbv beta. unfold wall_energy. ring.
Qed.
Lemma wall_loss J o w hk X phi delta vX vphi : usable w delta -> wa_beta (w_args w) * wa_Hr (w_args w) = 0 -> wall_equations J o w 0 hk X phi delta vX vphi ->
  (angle_slope w hk delta phi + iec J w phi o) * vphi - wa_Q (w_args w) * place_slope w X / delta * vX = - (wa_alpha (w_args w) / gyro * (vphi * vphi + vX / delta * (vX / delta))).
Proof.
  intros U Hr H. pose proof gyro_pos as Gp. pose proof U as (N0 & N1 & N2 & N3 & N4 & N5 & N6 & N7 & N8). set (a := w_args w) in *. destruct H as (ep & ex & D1 & D2 & E1 & E2).
  assert (P1 : derivable_pt_lim (fun p => wall_energy w hk delta X p - match o with None => 0 | Some o => coupling_field J w * cos (p - o) end) phi (angle_slope w hk delta phi + iec J w phi o)).
  { unfold iec. destruct o as [o|]; [apply angle_lim|]. rewrite Rplus_0_r. apply angle_lim0. }
  pose proof (uniqueness_limite _ _ _ _ D1 P1) as ->. pose proof (uniqueness_limite _ _ _ _ D2 (place_lim w hk delta phi X N5 N6 N3 N7 N8)) as ->. fold a in E1, E2 |- *.
  rewrite !Rmult_0_r, Hr in E2. rewrite Rmult_0_r in E1. set (P := angle_slope w hk delta phi + iec J w phi o) in *. set (S := wa_Q a * place_slope w X / delta).
  assert (EP : P = (vX / delta - wa_alpha a * vphi) / gyro) by (apply (Rmult_eq_reg_l gyro); [|lra]; unfold Rdiv in E1 at 2; rewrite Rmult_0_l, Rplus_0_r in E1; rewrite <- E1; field; split; lra).
  assert (ES : S = (vphi + wa_alpha a * (vX / delta)) / (gyro * delta)).
  { assert (E3 : vphi + wa_alpha a * (vX / delta) = gyro * delta * S) by (rewrite E2; unfold S; field; exact N1). rewrite E3. field. split; lra. }
  rewrite EP, ES. field. split; lra.
Qed.
Lemma one_dissipates ws w t vec out hk : ws_layers ws = [w] -> w_Hk w = Some hk -> w_je w t = 0 -> wa_beta (w_args w) * wa_Hr (w_args w) = 0 -> multilayer_dw_llg ws t vec = Ok out ->
  let v k := nth k vec 0 in let r k := nth k out 0 in
  derivable_pt_lim (fun s => weight w * wall_energy w hk (v 2%nat) (v 0%nat + s * r 0%nat) (v 1%nat + s * r 1%nat)) 0 (- loss w (v 2%nat) (r 0%nat) (r 1%nat)).
Proof.
  intros L Hk Hj Hr H v r. apply move_iff in H. destruct H as [_ H]. rewrite L in H. destruct (H 0%nat w eq_refl) as (_ & U & k & Hk' & E & _). rewrite Hk in Hk'. injection Hk' as <-. rewrite Hj in E. cbn [length neighbour Nat.eqb] in E.
  eapply lim_eq; [apply dl_scal; apply along_wall; exact U|]. pose proof (wall_loss _ _ _ _ _ _ _ _ _ U Hr E) as W. cbn [iec neighbour Nat.eqb] in W. rewrite Rplus_0_r in W. change (3 * 0)%nat with 0%nat in W. cbn [Nat.add] in W. fold (v 0%nat) (v 1%nat) (v 2%nat) (r 0%nat) (r 1%nat) in W. unfold loss.
  cbv beta. rewrite W. ring.
Qed.
Lemma pair_dissipates ws w1 w2 t vec out k1 k2 : ws_layers ws = [w1; w2] -> length vec = 6%nat -> w_Hk w1 = Some k1 -> w_Hk w2 = Some k2 -> w_je w1 t = 0 -> w_je w2 t = 0 ->
  wa_beta (w_args w1) * wa_Hr (w_args w1) = 0 -> wa_beta (w_args w2) * wa_Hr (w_args w2) = 0 -> multilayer_dw_llg ws t vec = Ok out ->
  let v k := nth k vec 0 in let r k := nth k out 0 in
  derivable_pt_lim (fun s => pair_energy (ws_J ws) w1 w2 k1 k2 (v 2%nat) (v 5%nat) (v 0%nat + s * r 0%nat) (v 1%nat + s * r 1%nat) (v 3%nat + s * r 3%nat) (v 4%nat + s * r 4%nat)) 0
    (- (loss w1 (v 2%nat) (r 0%nat) (r 1%nat) + loss w2 (v 5%nat) (r 3%nat) (r 4%nat))).
Proof.
  intros L LV K1 K2 J1 J2 R1 R2 H v r. apply move_iff in H. destruct H as [_ H]. rewrite L in H.
  destruct (H 0%nat w1 eq_refl) as (_ & U1 & k & Hk & E1 & _). rewrite K1 in Hk. injection Hk as <-. destruct (H 1%nat w2 eq_refl) as (_ & U2 & k & Hk & E2 & _). rewrite K2 in Hk. injection Hk as <-. rewrite J1 in E1. rewrite J2 in E2.
  pose proof (wall_loss _ _ _ _ _ _ _ _ _ U1 R1 E1) as W1. pose proof (wall_loss _ _ _ _ _ _ _ _ _ U2 R2 E2) as W2. unfold neighbour in W1, W2. rewrite LV in W1. cbn [length Nat.eqb iec Nat.sub Nat.mul Nat.add] in W1, W2.
  fold (v 0%nat) (v 1%nat) (v 2%nat) (r 0%nat) (r 1%nat) (v 4%nat) in W1. fold (v 3%nat) (v 1%nat) (v 5%nat) (r 3%nat) (r 4%nat) (v 4%nat) in W2.
  change (nth (3 * 0 + 2) vec 0) with (v 2%nat) in U1. change (nth (3 * 1 + 2) vec 0) with (v 5%nat) in U2. unfold pair_energy. cbv zeta.
  eapply lim_eq.
  - apply dl_minus; [apply dl_plus; apply dl_scal; apply along_wall; assumption|]. apply dl_scal. apply dl_cos. eapply (lim_eq _ _ (r 1%nat - r 4%nat)); [|reflexivity]. eapply lim_eq; [dlim|]. cbv beta. ring.
  - cbv beta. unfold loss. replace (v 1%nat + 0 * r 1%nat - (v 4%nat + 0 * r 4%nat)) with (v 1%nat - v 4%nat) by ring. pose proof mu0_pos as Mu.
    assert (C1 : weight w1 * coupling_field (ws_J ws) w1 = 2 * ws_J ws) by (unfold weight, coupling_field; destruct U1 as (_ & _ & _ & A1 & A2 & _); field; repeat split; try assumption; lra).
    assert (C2 : weight w2 * coupling_field (ws_J ws) w2 = 2 * ws_J ws) by (unfold weight, coupling_field; destruct U2 as (_ & _ & _ & A1 & A2 & _); field; repeat split; try assumption; lra).
    fold (weight w1) (weight w2). assert (S4 : sin (v 4%nat - v 1%nat) = - sin (v 1%nat - v 4%nat)) by (rewrite <- sin_neg; f_equal; ring). rewrite S4 in W2.
    apply (f_equal (Rmult (weight w1))) in W1. apply (f_equal (Rmult (weight w2))) in W2. rewrite !Rmult_minus_distr_l in W1, W2. rewrite <- !Rmult_assoc in W1, W2. rewrite !Rmult_plus_distr_l in W1, W2.
    replace (weight w1 * (coupling_field (ws_J ws) w1 * sin (v 1%nat - v 4%nat))) with (2 * ws_J ws * sin (v 1%nat - v 4%nat)) in W1 by (rewrite <- C1; ring).
    replace (weight w2 * (coupling_field (ws_J ws) w2 * - sin (v 1%nat - v 4%nat))) with (- (2 * ws_J ws * sin (v 1%nat - v 4%nat))) in W2 by (rewrite <- C2; ring). lra.
Qed.

(** ** Construction *)
Lemma width0_iff a e d : get_unrelaxed_domain_width a e = Ok d <->
  let K := if e then wa_Ku a - dw_mu0 * (wa_Ms a * wa_Ms a) / 2 else wa_Ku a in K <> 0 /\ 0 <= wa_A a / K /\ d = sqrt (wa_A a / K).
Proof.
  unfold get_unrelaxed_domain_width. cbv zeta. replace (wa_Ku a - 1 / 2 * dw_mu0 * wa_Ms a ^ 2) with (wa_Ku a - dw_mu0 * (wa_Ms a * wa_Ms a) / 2) by field. set (K := if e then _ else _). split.
  - intros H. apply rbind_iff in H. destruct H as [q [Q H]]. apply div_iff in Q. destruct Q as [N ->]. apply msqrt_iff in H. tauto.
  - intros (N & P & ->). rewrite (proj2 (div_iff _ _ _) (conj N eq_refl)). cbn [rbind]. apply msqrt_iff. tauto.
Qed.
Lemma charge_nz : dw_echarge <> 0. Proof. unfold dw_echarge. lra. Qed.
Lemma newWall_iff a w : newWall a = Ok w <->
  wa_Ms a <> 0 /\ wa_thickness a <> 0 /\ wa_Ku a <> 0 /\ 0 <= wa_A a / wa_Ku a /\
  w = Wall a (dw_bohr * wa_p a / (dw_echarge * wa_Ms a)) (dw_hbar * wa_SHE a / (2 * wa_Ms a * dw_mu0 * dw_echarge * wa_thickness a)) (get_cartesian (wa_H a)) (sqrt (wa_A a / wa_Ku a)) (anisotropy_field a) (fun _ => 0).
Proof.
  unfold newWall, anisotropy_field. pose proof mu0_pos as Mu. pose proof charge_nz as Ce. split.
  - intros H. apply rbind_iff in H. destruct H as [b [B H]]. apply div_iff in B. destruct B as [N1 ->]. apply rbind_iff in H. destruct H as [s [S H]]. apply div_iff in S. destruct S as [N2 ->]. apply rbind_iff in H. destruct H as [d [D H]]. apply width0_iff in D. cbv zeta iota in D. destruct D as (N3 & P & ->).
    assert (wa_Ms a <> 0) by (intros E; apply N1; rewrite E; ring). assert (wa_thickness a <> 0) by (intros E; apply N2; rewrite E; ring). repeat (split; [assumption|]).
    apply rbind_iff in H. destruct H as [k [K H]]. destruct (String.eqb (wa_moving a) "perpendicular"); [|destruct (String.eqb (wa_moving a) "inplane")].
    + apply rbind_iff in K. destruct K as [f [F K]]. apply div_iff in F. destruct F as [_ ->]. injection K as <-. injection H as <-. reflexivity.
    + apply rbind_iff in K. destruct K as [f [F K]]. apply div_iff in F. destruct F as [_ ->]. injection K as <-. injection H as <-. reflexivity.
    + injection K as <-. injection H as <-. reflexivity.
  - intros (N1 & N2 & N3 & P & ->). assert (M1 : dw_echarge * wa_Ms a <> 0) by (apply Rmult_integral_contrapositive_currified; assumption).
    assert (M2 : 2 * wa_Ms a * dw_mu0 * dw_echarge * wa_thickness a <> 0) by (repeat apply Rmult_integral_contrapositive_currified; try assumption; lra). assert (M3 : dw_mu0 * wa_Ms a <> 0) by (apply Rmult_integral_contrapositive_currified; [lra|assumption]).
    rewrite (proj2 (div_iff _ _ _) (conj M1 eq_refl)). cbn [rbind]. rewrite (proj2 (div_iff _ _ _) (conj M2 eq_refl)). cbn [rbind]. rewrite (proj2 (width0_iff a false _) (conj N3 (conj P eq_refl))). cbn [rbind].
    unfold get_perpendicular_anisotropy_field, get_inplane_anisotropy_field. destruct (String.eqb (wa_moving a) "perpendicular"); [|destruct (String.eqb (wa_moving a) "inplane"); [|reflexivity]]; rewrite (proj2 (div_iff _ _ _) (conj M3 eq_refl)); reflexivity.
Qed.
Lemma newWalls_iff ls J ws : newWalls ls J = Ok ws <-> (length ls <= 2)%nat /\ ws = Walls ls J.
Proof. unfold newWalls. destruct (Nat.ltb_spec 2 (length ls)); split; try discriminate; [intros [? _]; lia|intros H'; injection H' as <-; tauto|intros [_ ->]; reflexivity]. Qed.

(** ** Widths *)
Lemma static_width a phi : 0 < wa_A a -> 0 < wa_Ku a -> 0 <= wa_Kp a ->
  sqrt (wa_A a / wa_Ku a) / sqrt (1 + wa_Kp a / wa_Ku a * (sin phi * sin phi)) = relaxed_width a phi /\ 0 < relaxed_width a phi <= sqrt (wa_A a / wa_Ku a).
Proof.
  intros A K P. unfold relaxed_width. set (s := sin phi * sin phi). assert (S0 : 0 <= s) by (unfold s; nra). assert (D : 0 < wa_Ku a + wa_Kp a * s) by nra.
  assert (Q : 0 < 1 + wa_Kp a / wa_Ku a * s). { assert (0 <= wa_Kp a / wa_Ku a) by (apply Rmult_le_pos; [lra|left; apply Rinv_0_lt_compat; lra]). nra. }
  split.
  - rewrite <- sqrt_div_alt by exact Q. f_equal. field. repeat split; try lra. 
  - split; [apply sqrt_lt_R0, Rdiv_lt_0_compat; assumption|]. apply sqrt_le_1_alt. unfold Rdiv. apply Rmult_le_compat_l; [lra|]. apply Rinv_le_contravar; nra.
Qed.
(** The width rate is zero at the relaxed width, positive below and negative above it. *)
Lemma width_rate_sign a phi d : 0 < wa_A a -> 0 < wa_Ku a -> 0 <= wa_Kp a -> 0 < wa_alpha a -> 0 < wa_Ms a -> 0 < wa_thickness a -> 0 < d ->
  (0 < width_rate a phi d <-> d < relaxed_width a phi) /\ (width_rate a phi d = 0 <-> d = relaxed_width a phi) /\ (width_rate a phi d < 0 <-> relaxed_width a phi < d).
Proof.
  intros A K P Al M T Hd. unfold width_rate. pose proof gyro_pos as Gp. pose proof mu0_pos as Mu. replace (sin phi ^ 2) with (sin phi * sin phi) by ring. set (s := sin phi * sin phi). assert (S0 : 0 <= s) by (unfold s; nra). assert (D : 0 < wa_Ku a + wa_Kp a * s) by nra.
  assert (RP : 0 < relaxed_width a phi) by (apply static_width; assumption). assert (RS : wa_A a = relaxed_width a phi * relaxed_width a phi * (wa_Ku a + wa_Kp a * s)). { unfold relaxed_width. fold s. rewrite sqrt_sqrt; [field; lra|]. left. apply Rdiv_lt_0_compat; assumption. }
  set (r := relaxed_width a phi) in *. rewrite RS. set (k := wa_Ku a + wa_Kp a * s) in *.
  assert (F : gyro / (wa_alpha a * dw_mu0 * wa_Ms a * wa_thickness a) * (r * r * k / d - d * k) = gyro / (wa_alpha a * dw_mu0 * wa_Ms a * wa_thickness a) * (k * (r + d) / d) * (r - d)) by (field; repeat split; lra). rewrite F.
  assert (C : 0 < gyro / (wa_alpha a * dw_mu0 * wa_Ms a * wa_thickness a) * (k * (r + d) / d)). { apply Rmult_lt_0_compat; apply Rdiv_lt_0_compat; try assumption; repeat apply Rmult_lt_0_compat; lra. }
  set (c := gyro / _ * _) in *. split; [|split]; split; intros H; nra.
Qed.

(** ** Runs *)
Lemma accepted_det trace : forall d e, accepted trace d -> accepted trace e -> d = e.
Proof.
  induction trace as [|s trace IH]; intros d e; cbn [accepted]; [tauto|]. destruct (rk_status_of s); [|congruence|congruence]. intros (r & -> & H) (q & -> & G). f_equal. apply IH; assumption.
Qed.
Definition report_at (t0 : R) (old : list R) (t : R) (y : list R) (i : nat) (w : wall) (r : wall_row) : Prop :=
  (3 * i + 2 < length y)%nat /\ (2 * i < length old)%nat /\ t <> t0 /\
  r_x r = nth (3 * i) y 0 /\ r_phi r = nth (3 * i + 1) y 0 /\ r_je r = w_je w t /\
  r_v r = (nth (3 * i) y 0 - nth (2 * i) old 0) / Rabs (t - t0) /\
  match wa_relax (w_args w) with
  | STATIC => let q := 1 + wa_Kp (w_args w) / wa_Ku (w_args w) * (sin (r_phi r) * sin (r_phi r)) in wa_Ku (w_args w) <> 0 /\ 0 < q /\ r_dw r = w_dw0 w / sqrt q
  | _ => r_dw r = nth (3 * i + 2) y 0
  end.
Lemma report_iff t0 old t y i w r : wall_report t0 old t y i w = Ok r <-> report_at t0 old t y i w r.
Proof.
  unfold wall_report, report_at. set (a := w_args w). split.
  - intros H. apply rbind_iff in H. destruct H as [X [HX H]]. apply (row_at y _ 0) in HX. destruct HX as [_ ->]. apply rbind_iff in H. destruct H as [phi [HP H]]. apply (row_at y _ 0) in HP. destruct HP as [_ ->].
    apply rbind_iff in H. destruct H as [d [HD H]]. apply (row_at y _ 0) in HD. destruct HD as [L ->]. apply rbind_iff in H. destruct H as [dw [W H]]. apply rbind_iff in H. destruct H as [o [O H]]. apply (row_at old _ 0) in O. destruct O as [L2 ->].
    apply rbind_iff in H. destruct H as [v [V H]]. apply fdiv_iff' in V. destruct V as [N ->]. injection H as <-. cbn [r_dw r_v r_x r_phi r_je].
    assert (Nt : t <> t0) by (intros ->; apply N; unfold Rminus; rewrite Rplus_opp_r; apply Rabs_R0). repeat (split; [assumption || reflexivity|]).
    destruct (wa_relax a); cbn [is_static_width] in W; [injection W as <-; reflexivity| |injection W as <-; reflexivity].
    apply rbind_iff in W. destruct W as [q [Q W]]. apply div_iff in Q. destruct Q as [Nk ->]. apply rbind_iff in W. destruct W as [z [Z W]]. apply msqrt_iff in Z. destruct Z as [P ->]. apply div_iff in W. destruct W as [Nz ->]. cbv zeta. change (i + (i + (i + 0)))%nat with (3 * i)%nat.
    replace (sin (nth (3 * i + 1) y 0) * sin (nth (3 * i + 1) y 0)) with (sin (nth (3 * i + 1) y 0) ^ 2) by ring. split; [exact Nk|]. split; [|reflexivity]. destruct P as [P|P]; [exact P|]. exfalso. apply Nz. rewrite <- P. apply sqrt_0.
  - intros (L & L2 & Nt & E1 & E2 & E3 & E4 & E5). destruct r as [rd rv rx rp rj]. cbn [r_dw r_v r_x r_phi r_je] in *. subst rx rp rj rv. assert (L0 : (3 * i < length y)%nat) by lia. assert (L1 : (3 * i + 1 < length y)%nat) by lia.
    rewrite (proj2 (row_at y (3 * i) 0 _) (conj L0 eq_refl)). cbn [rbind]. rewrite (proj2 (row_at y (3 * i + 1) 0 _) (conj L1 eq_refl)). cbn [rbind]. rewrite (proj2 (row_at y (3 * i + 2) 0 _) (conj L eq_refl)). cbn [rbind].
    assert (W : (if is_static_width (wa_relax a) then ratio <-- py_div (wa_Kp a) (wa_Ku a) ;; s <-- math_sqrt (1 + ratio * sin (nth (3 * i + 1) y 0) ^ 2) ;; py_div (w_dw0 w) s else Ok (nth (3 * i + 2) y 0)) = Ok rd).
    { destruct (wa_relax a); cbn [is_static_width]; [rewrite E5; reflexivity| |rewrite E5; reflexivity]. cbv zeta in E5. destruct E5 as (Nk & P & ->). replace (sin (nth (3 * i + 1) y 0) * sin (nth (3 * i + 1) y 0)) with (sin (nth (3 * i + 1) y 0) ^ 2) in * by ring.
      rewrite (proj2 (div_iff _ _ _) (conj Nk eq_refl)). cbn [rbind]. rewrite (proj2 (msqrt_iff _ _) (conj (Rlt_le _ _ P) eq_refl)). cbn [rbind]. apply div_iff. split; [|reflexivity]. apply sqrt_lt_R0 in P. lra. }
    rewrite W. cbn [rbind]. rewrite (proj2 (row_at old (2 * i) 0 _) (conj L2 eq_refl)). cbn [rbind]. assert (N : Rabs (t - t0) <> 0) by (apply Rabs_no_R0; lra). rewrite (proj2 (fdiv_iff' _ _ _) (conj N eq_refl)). reflexivity.
Qed.
Lemma reports_iff t0 old t y ws : forall i rs, walls_report t0 old t y i ws = Ok rs <-> length rs = length ws /\ forall k w, nth_error ws k = Some w -> exists r, nth_error rs k = Some r /\ report_at t0 old t y (i + k) w r.
Proof.
  induction ws as [|w ws IH]; intros i rs; cbn [walls_report].
  - split; [intros H; injection H as <-; split; [reflexivity|intros [|k] ?; discriminate]|]. intros [L _]. destruct rs; [reflexivity|discriminate].
  - split.
    + intros H. apply rbind_iff in H. destruct H as [d [HD H]]. apply rbind_iff in H. destruct H as [rest [HR H]]. injection H as <-. apply report_iff in HD. apply IH in HR. destruct HR as [L HR]. split; [cbn [length]; lia|].
      intros [|k] w' Hw; [injection Hw as <-; exists d; rewrite Nat.add_0_r; split; [reflexivity|exact HD]|]. destruct (HR k w' Hw) as (r & H1 & H2). exists r. split; [exact H1|]. replace (i + S k)%nat with (S i + k)%nat by lia. exact H2.
    + intros [L H]. cbn [length] in L. destruct rs as [|r rs]; [discriminate|]. destruct (H 0%nat w eq_refl) as (r' & H1 & H2). injection H1 as <-. rewrite Nat.add_0_r in H2. rewrite (proj2 (report_iff _ _ _ _ _ _ _) H2). cbn [rbind].
      assert (HR : walls_report t0 old t y (S i) ws = Ok rs). { apply IH. split; [cbn [length] in L; lia|]. intros k w' Hw. destruct (H (S k) w' Hw) as (q & Q1 & Q2). exists q. split; [exact Q1|]. replace (i + S k)%nat with (S i + k)%nat in Q2 by lia. exact Q2. }
      rewrite HR. reflexivity.
Qed.
Definition before_from (t0 : R) (y0 : list R) (done : list (R * list R)) (k : nat) : R * list R := match k with O => (t0, y0) | S j => nth j done (0, []) end.
Lemma run_loop_iff ws trace : forall t0 y0 rows, run_loop ws t0 y0 trace = Ok rows <->
  exists done, accepted trace done /\ length rows = length done /\
  forall k, (k < length done)%nat -> fst (nth k rows (0, [])) = fst (nth k done (0, [])) /\ length (snd (nth k rows (0, []))) = length ws /\
    forall i w, nth_error ws i = Some w -> exists r, nth_error (snd (nth k rows (0, []))) i = Some r /\
      report_at (fst (before_from t0 y0 done k)) (snd (before_from t0 y0 done k)) (fst (nth k done (0, []))) (snd (nth k done (0, []))) i w r.
Proof.
  induction trace as [|s trace IH]; intros t0 y0 rows; cbn [run_loop accepted].
  - split; [discriminate|]. intros (d & [] & _).
  - destruct (rk_status_of s) eqn:St.
    + split.
      * intros H. apply rbind_iff in H. destruct H as [r [R1 H]]. apply rbind_iff in H. destruct H as [rest [R2 H]]. injection H as <-. apply reports_iff in R1. destruct R1 as [L1 R1]. apply IH in R2. destruct R2 as (done & A1 & L2 & R2).
        exists ((rk_t s, rk_y s) :: done). split; [exists done; split; [reflexivity|exact A1]|]. split; [cbn [length]; lia|]. intros [|k] Hk; [cbn [nth fst snd before_from]; split; [reflexivity|]; split; [exact L1|exact R1]|].
        cbn [length] in Hk. assert (Hk' : (k < length done)%nat) by lia. destruct (R2 k Hk') as (Q1 & Q2 & Q3). cbn [nth fst snd]. split; [exact Q1|]. split; [exact Q2|]. destruct k as [|k]; exact Q3.
      * intros (done & (rest & -> & A1) & L & H). destruct rows as [|[tr rr] rows]; [discriminate|]. cbn [length] in L.
        destruct (H 0%nat ltac:(cbn; lia)) as (Q1 & Q2 & Q3). cbn [nth fst snd before_from] in Q1, Q2, Q3. subst tr. rewrite (proj2 (reports_iff t0 y0 (rk_t s) (rk_y s) ws 0 rr) (conj Q2 Q3)). cbn [rbind].
        assert (R2 : run_loop ws (rk_t s) (rk_y s) trace = Ok rows). { apply IH. exists rest. split; [exact A1|]. split; [lia|]. intros k Hk. assert (Hk' : (S k < length ((rk_t s, rk_y s) :: rest))%nat) by (cbn; lia). destruct (H (S k) Hk') as (S1 & S2 & S3). cbn [nth] in S1, S2. split; [exact S1|]. split; [exact S2|]. destruct k as [|k]; exact S3. }
        rewrite R2. reflexivity.
    + split.
      * intros H. apply rbind_iff in H. destruct H as [r [R1 H]]. injection H as <-. apply reports_iff in R1. destruct R1 as [L1 R1]. exists [(rk_t s, rk_y s)]. split; [reflexivity|]. split; [reflexivity|]. intros k Hk. cbn in Hk. destruct k; [|lia]. cbn [nth fst snd before_from]. split; [reflexivity|]. split; [exact L1|exact R1].
      * intros (done & -> & L & H). destruct rows as [|[tr rr] [|? ?]]; try discriminate. destruct (H 0%nat ltac:(cbn; lia)) as (Q1 & Q2 & Q3). cbn [nth fst snd before_from] in Q1, Q2, Q3. subst tr. rewrite (proj2 (reports_iff t0 y0 (rk_t s) (rk_y s) ws 0 rr) (conj Q2 Q3)). reflexivity.
    + split; [intros H; injection H as <-; exists []; split; [reflexivity|]; split; [reflexivity|]; intros k Hk; cbn in Hk; lia|]. intros (done & -> & L & _). destruct rows; [reflexivity|discriminate].
Qed.
Lemma run_iff ws y0 trace rows : run_walls ws y0 trace = Ok rows <->
  exists done, accepted trace done /\ length rows = length done /\
  forall k, (k < length done)%nat -> fst (nth k rows (0, [])) = fst (nth k done (0, [])) /\ length (snd (nth k rows (0, []))) = length (ws_layers ws) /\
    forall i w, nth_error (ws_layers ws) i = Some w -> exists r, nth_error (snd (nth k rows (0, []))) i = Some r /\ reported y0 done k i w r.
Proof.
  unfold run_walls. rewrite run_loop_iff. unfold reported, report_at. split; intros (done & A1 & L & H); exists done; (split; [exact A1|]); (split; [exact L|]); intros k Hk; destruct (H k Hk) as (Q1 & Q2 & Q3); (split; [exact Q1|]); (split; [exact Q2|]); intros i w Hw; destruct (Q3 i w Hw) as (r & R1 & R2); exists r; (split; [exact R1|]);
    change (before_from 0 y0 done k) with (before y0 done k) in *; destruct (before y0 done k) as [tb yb]; destruct (nth k done (0, [])) as [tc yc]; exact R2.
Qed.
Lemma contribution_iff w X phi dw r : let a := w_args w in let h := w_h w in
  get_field_contribution X phi (cx h) (cy h) (cz h) (wa_alpha a) dw (wa_Ms a) (wa_V0_pin a) (wa_pinning a) (wa_Ly a) (wa_Lz a) = Ok r <->
  wa_pinning a <> 0 /\ wa_Ms a <> 0 /\ wa_Ly a <> 0 /\ wa_Lz a <> 0 /\
  let f := cz h - 1 / pin_scale a * (2 * PI * wa_V0_pin a * sin (X * PI / wa_pinning a) * cos (X * PI / wa_pinning a)) in let g := PI / 2 * (cx h * sin phi - cy h * cos phi) in
  r = (gyro * dw * (wa_alpha a * f + g), gyro * (f - wa_alpha a * g)).
Proof.
  intros a h. unfold get_field_contribution. split.
  - intros H. apply rbind_iff in H. destruct H as [p [P H]]. apply pinning_iff in P. destruct P as (N1 & N2 & N3 & N4 & ->). injection H as <-. repeat (split; [assumption|]). cbv zeta. unfold pin_scale. f_equal; unfold Rdiv; ring.
  - intros (N1 & N2 & N3 & N4 & ->). rewrite (proj2 (pinning_iff _ _ _ _ _ _ _) (conj N1 (conj N2 (conj N3 (conj N4 eq_refl))))). cbn [rbind]. cbv zeta. unfold pin_scale. apply f_equal. f_equal; unfold Rdiv; ring.
Qed.
Lemma pinning_slope X Ms pinning Ly Lz V0 r : get_pinning_field X Ms pinning Ly Lz V0 = Ok r <->
  pinning <> 0 /\ Ms <> 0 /\ Ly <> 0 /\ Lz <> 0 /\ exists s, derivable_pt_lim (fun x => V0 * (sin (PI * x / pinning) * sin (PI * x / pinning))) X s /\ r = - pinning * s / (2 * dw_mu0 * Ms * Ly * Lz).
Proof.
  rewrite pinning_iff. pose proof mu0_pos as Mu.
  assert (D : pinning <> 0 -> derivable_pt_lim (fun x => V0 * (sin (PI * x / pinning) * sin (PI * x / pinning))) X (V0 * (2 * PI / pinning * sin (X * PI / pinning) * cos (X * PI / pinning)))).
  { intros N. apply (lim_ext (fun x => V0 * (sin (PI / pinning * x) * sin (PI / pinning * x)))). { intros x. replace (PI / pinning * x) with (PI * x / pinning) by (field; exact N). reflexivity. }
    eapply lim_eq; [apply dl_scal; apply derivable_pt_lim_mult; apply dl_sin; apply dl_scal; apply dl_id|]. cbv beta. replace (PI / pinning * X) with (X * PI / pinning) by (field; exact N). field. exact N. }
  split.
  - intros (N1 & N2 & N3 & N4 & ->). repeat (split; [assumption|]). eexists. split; [apply D, N1|]. field. repeat split; try assumption; lra.
  - intros (N1 & N2 & N3 & N4 & s & S & ->). repeat (split; [assumption|]). rewrite (uniqueness_limite _ _ _ _ S (D N1)). field. repeat split; try assumption; lra.
Qed.
Lemma coupling_acts l1 l2 J t vec out out0 : length vec = 6%nat -> multilayer_dw_llg (Walls [l1; l2] J) t vec = Ok out -> multilayer_dw_llg (Walls [l1; l2] 0) t vec = Ok out0 ->
  let d w k := weight w * (1 + wa_alpha (w_args w) * wa_alpha (w_args w)) * ((nth (3 * k) out 0 - nth (3 * k) out0 0) / nth (3 * k + 2) vec 0) in
  let f w k := nth (3 * k + 1) out 0 - nth (3 * k + 1) out0 0 = - wa_alpha (w_args w) * ((nth (3 * k) out 0 - nth (3 * k) out0 0) / nth (3 * k + 2) vec 0) in
  d l1 0%nat = 2 * gyro * J * sin (nth 1 vec 0 - nth 4 vec 0) /\ d l2 1%nat = - d l1 0%nat /\ f l1 0%nat /\ f l2 1%nat.
Proof.
  intros L H H0. apply llg_iff in H. apply llg_iff in H0. cbn [ws_layers ws_J length] in H, H0. destruct H as [_ H]. destruct H0 as [_ H0]. pose proof mu0_pos as Mu.
  assert (Q : forall w k a1 a2, nth_error [l1; l2] k = Some w -> neighbour 2 k vec = Some a2 -> nth (3 * k + 1) vec 0 = a1 ->
    weight w * (1 + wa_alpha (w_args w) * wa_alpha (w_args w)) * ((nth (3 * k) out 0 - nth (3 * k) out0 0) / nth (3 * k + 2) vec 0) = 2 * gyro * J * sin (a1 - a2) /\
    nth (3 * k + 1) out 0 - nth (3 * k + 1) out0 0 = - wa_alpha (w_args w) * ((nth (3 * k) out 0 - nth (3 * k) out0 0) / nth (3 * k + 2) vec 0)).
  { intros w k a1 a2 Hw Ho <-. destruct (H k w Hw) as (_ & U & hk & Hk & E). destruct (H0 k w Hw) as (_ & _ & hk' & Hk' & E0). rewrite Hk in Hk'. injection Hk' as <-. unfold rates in E, E0. rewrite Ho in E, E0. cbn [iec] in E, E0.
    pose proof (f_equal (fun q => fst (fst q)) E) as E1. pose proof (f_equal (fun q => snd (fst q)) E) as E2. pose proof (f_equal (fun q => fst (fst q)) E0) as F1. pose proof (f_equal (fun q => snd (fst q)) E0) as F2. cbn [fst snd] in E1, E2, F1, F2. rewrite E1, E2, F1, F2.
    destruct U as (_ & N1 & N2 & N3 & N4 & _). unfold ga_of, coupling_field, weight. set (a := w_args w) in *. pose proof (one_alpha2 (wa_alpha a)) as NA. assert (NA' : 1 + wa_alpha a * wa_alpha a <> 0) by (replace (wa_alpha a * wa_alpha a) with (wa_alpha a ^ 2) by ring; exact NA).
    split; field; repeat split; try assumption; lra. }
  cbv zeta. destruct (Q l1 0%nat (nth 1 vec 0) (nth 4 vec 0) eq_refl) as [A1 A2]; [unfold neighbour; rewrite L; reflexivity|reflexivity|]. destruct (Q l2 1%nat (nth 4 vec 0) (nth 1 vec 0) eq_refl) as [B1 B2]; [reflexivity|reflexivity|].
  split; [exact A1|]. split; [|split; assumption]. rewrite A1, B1. replace (nth 4 vec 0 - nth 1 vec 0) with (- (nth 1 vec 0 - nth 4 vec 0)) by ring. rewrite sin_neg. ring.
Qed.
(** The width rate the integrator gets. *)
Lemma width_settles ws t vec out i w : multilayer_dw_llg ws t vec = Ok out -> nth_error (ws_layers ws) i = Some w -> wa_relax (w_args w) = DYNAMIC ->
  0 < wa_A (w_args w) -> 0 < wa_Ku (w_args w) -> 0 <= wa_Kp (w_args w) -> 0 < wa_alpha (w_args w) -> 0 < wa_Ms (w_args w) -> 0 < wa_thickness (w_args w) -> 0 < nth (3 * i + 2) vec 0 ->
  let d := nth (3 * i + 2) vec 0 in let r := relaxed_width (w_args w) (nth (3 * i + 1) vec 0) in let v := nth (3 * i + 2) out 0 in
  (0 < v <-> d < r) /\ (v = 0 <-> d = r) /\ (v < 0 <-> r < d).
Proof.
  intros H Hw Hd A1 A2 A3 A4 A5 A6 A7. cbv zeta. apply llg_iff in H. destruct H as [_ H]. destruct (H i w Hw) as (_ & _ & hk & _ & E). unfold rates in E. rewrite Hd in E. apply (f_equal snd) in E. cbn [snd is_dynamic_width] in E. rewrite E. apply width_rate_sign; assumption.
Qed.
Lemma moves_exist ws t vec : (3 * length (ws_layers ws) <= length vec)%nat -> (forall i w, nth_error (ws_layers ws) i = Some w -> usable w (nth (3 * i + 2) vec 0)) -> exists out, multilayer_dw_llg ws t vec = Ok out.
Proof.
  unfold multilayer_dw_llg. set (n := length (ws_layers ws)) at 2. generalize (ws_J ws). intros J L U.
  assert (G : forall l i, (3 * (i + length l) <= length vec)%nat -> (forall k w, nth_error l k = Some w -> usable w (nth (3 * (i + k) + 2) vec 0)) -> exists out, walls_llg n J t vec i l = Ok out).
  { induction l as [|w l IH]; intros i Li Ui; [exists []; reflexivity|]. cbn [length] in Li. cbn [walls_llg]. pose proof (Ui 0%nat w eq_refl) as U0. rewrite Nat.add_0_r in U0. pose proof U0 as (N0 & _). destruct (w_Hk w) as [hk|] eqn:Hk; [|contradiction].
    assert (Lw : (3 * i + 2 < length vec)%nat) by lia. rewrite (proj2 (wall_llg_iff n J t vec i w (rates n J t vec i w hk))); [|split; [exact Lw|]; split; [exact U0|]; exists hk; split; [exact Hk|reflexivity]]. cbn [rbind].
    destruct (IH (S i)) as [out Ho]; [lia| |]. { intros k w' Hw. specialize (Ui (S k) w' Hw). replace (S i + k)%nat with (i + S k)%nat by lia. exact Ui. }
    rewrite Ho. cbn [rbind]. unfold rates. eexists. reflexivity. }
  apply (G (ws_layers ws) 0%nat); [exact L|]. exact U.
Qed.
