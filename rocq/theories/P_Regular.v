(** Layers whose drivers have no jumps have a bounded Lipschitz right-hand side. *)
From Verif Require Import P_Vec P_Step4.
From Verif Require Export P_Metric.
From Coq Require Import Reals Lra Lia Psatz.
Open Scope R_scope.

(** A point: time, own magnetisation, neighbour below, neighbour above. *)
Record pt := PT { pt_t : R; pt_v : cvec; pt_b : cvec; pt_w : cvec }.
Definition dom (T : R) (x : pt) : Prop := 0 <= pt_t x <= T /\ Norm (pt_v x) <= 2 /\ Norm (pt_b x) <= 2 /\ Norm (pt_w x) <= 2.
Definition gap (x y : pt) : R := Rabs (pt_t x - pt_t y) + Distance (pt_v x) (pt_v y) + Distance (pt_b x) (pt_b y) + Distance (pt_w x) (pt_w y).
Lemma gap_nonneg x y : 0 <= gap x y.
Proof.
  unfold gap. pose proof (Rabs_pos (pt_t x - pt_t y)). pose proof (Distance_nonneg (pt_v x) (pt_v y)).
  pose proof (Distance_nonneg (pt_b x) (pt_b y)). pose proof (Distance_nonneg (pt_w x) (pt_w y)). lra.
Qed.

Section Calculus.
Context (T : R).
Definition bl (f : pt -> R) : Prop :=
  exists B K, 0 <= B /\ 0 <= K /\ forall x, dom T x -> Rabs (f x) <= B /\ forall y, dom T y -> Rabs (f x - f y) <= K * gap x y.
Definition vbl (F : pt -> cvec) : Prop := bl (fun x => cx (F x)) /\ bl (fun x => cy (F x)) /\ bl (fun x => cz (F x)).

Lemma bl_const c : bl (fun _ => c).
Proof.
  exists (Rabs c), 0. split; [apply Rabs_pos|]. split; [lra|]. intros x _. split; [lra|]. intros y _. rewrite Rminus_diag_eq, Rabs_R0 by reflexivity. lra.
Qed.
Lemma bl_plus f g : bl f -> bl g -> bl (fun x => f x + g x).
Proof.
  intros (B & K & HB & HK & F) (B' & K' & HB' & HK' & G). exists (B + B'), (K + K'). split; [lra|]. split; [lra|].
  intros x X. destruct (F x X) as [F1 F2], (G x X) as [G1 G2]. split.
  - pose proof (Rabs_triang (f x) (g x)). lra.
  - intros y Y. specialize (F2 y Y). specialize (G2 y Y). replace (f x + g x - (f y + g y)) with ((f x - f y) + (g x - g y)) by ring.
    pose proof (Rabs_triang (f x - f y) (g x - g y)). lra.
Qed.
Lemma bl_mult f g : bl f -> bl g -> bl (fun x => f x * g x).
Proof.
  intros (B & K & HB & HK & F) (B' & K' & HB' & HK' & G). exists (B * B'), (K * B' + B * K').
  split; [apply Rmult_le_pos; lra|]. split; [assert (0 <= K * B') by (apply Rmult_le_pos; lra); assert (0 <= B * K') by (apply Rmult_le_pos; lra); lra|].
  intros x X. destruct (F x X) as [F1 F2], (G x X) as [G1 G2]. pose proof (Rabs_pos (f x)). pose proof (Rabs_pos (g x)). split.
  - rewrite Rabs_mult. apply Rmult_le_compat; lra.
  - intros y Y. specialize (F2 y Y). specialize (G2 y Y). destruct (F y Y) as [F3 _], (G y Y) as [G3 _].
    replace (f x * g x - f y * g y) with ((f x - f y) * g x + f y * (g x - g y)) by ring.
    pose proof (Rabs_triang ((f x - f y) * g x) (f y * (g x - g y))) as TR. rewrite !Rabs_mult in TR. pose proof (gap_nonneg x y).
    pose proof (Rabs_pos (f x - f y)). pose proof (Rabs_pos (f y)). pose proof (Rabs_pos (g x - g y)).
    assert (Rabs (f x - f y) * Rabs (g x) <= (K * gap x y) * B') by (apply Rmult_le_compat; lra).
    assert (Rabs (f y) * Rabs (g x - g y) <= B * (K' * gap x y)) by (apply Rmult_le_compat; lra).
    lra.
Qed.
Lemma bl_ext f g : (forall x, dom T x -> f x = g x) -> bl f -> bl g.
Proof.
  intros E (B & K & HB & HK & F). exists B, K. split; [exact HB|]. split; [exact HK|]. intros x X. destruct (F x X) as [F1 F2]. rewrite <- (E x X).
  split; [exact F1|]. intros y Y. rewrite <- (E y Y). auto.
Qed.
Lemma bl_opp f : bl f -> bl (fun x => - f x).
Proof. intros F. apply (bl_ext (fun x => (-1) * f x)); [intros; ring|]. apply bl_mult; [apply bl_const|exact F]. Qed.
Lemma bl_minus f g : bl f -> bl g -> bl (fun x => f x - g x).
Proof. intros F G. apply (bl_plus f (fun x => - g x)); [exact F|apply bl_opp; exact G]. Qed.
Lemma bl_inv f e : 0 < e -> (forall x, dom T x -> e <= Rabs (f x)) -> bl f -> bl (fun x => / f x).
Proof.
  intros He HE (B & K & HB & HK & F). assert (I : 0 < / e) by (apply Rinv_0_lt_compat; exact He). exists (/ e), (/ e * / e * K).
  split; [lra|]. split; [repeat apply Rmult_le_pos; lra|]. intros x X. destruct (F x X) as [F1 F2]. pose proof (HE x X) as EX.
  assert (NX : f x <> 0) by (intros Z; rewrite Z, Rabs_R0 in EX; lra). assert (IX : Rabs (/ f x) <= / e) by (rewrite Rabs_inv; apply Rinv_le_contravar; lra).
  split; [exact IX|]. intros y Y. specialize (F2 y Y). pose proof (HE y Y) as EY. assert (NY : f y <> 0) by (intros Z; rewrite Z, Rabs_R0 in EY; lra).
  assert (IY : Rabs (/ f y) <= / e) by (rewrite Rabs_inv; apply Rinv_le_contravar; lra).
  replace (/ f x - / f y) with (/ f x * / f y * (f y - f x)) by (field; split; assumption). rewrite !Rabs_mult, (Rabs_minus_sym (f y)).
  pose proof (Rabs_pos (/ f x)). pose proof (Rabs_pos (/ f y)). pose proof (Rabs_pos (f x - f y)).
  assert (Rabs (/ f x) * Rabs (/ f y) <= / e * / e) by (apply Rmult_le_compat; lra).
  replace (/ e * / e * K * gap x y) with (/ e * / e * (K * gap x y)) by ring. apply Rmult_le_compat; try lra. apply Rmult_le_pos; lra.
Qed.
Lemma bl_time g B K : (forall t, 0 <= t <= T -> Rabs (g t) <= B /\ forall t', 0 <= t' <= T -> Rabs (g t - g t') <= K * Rabs (t - t')) -> bl (fun x => g (pt_t x)).
Proof.
  intros H. exists (Rmax 0 B), (Rmax 0 K). split; [apply Rmax_l|]. split; [apply Rmax_l|]. intros x (X & _). destruct (H _ X) as [A L].
  split; [apply Rle_trans with B; [exact A|apply Rmax_r]|]. intros y (Y & _). apply Rle_trans with (1 := L _ Y).
  pose proof (Rmax_r 0 K). pose proof (Rmax_l 0 K). pose proof (Rabs_pos (pt_t x - pt_t y)).
  apply Rle_trans with (Rmax 0 K * Rabs (pt_t x - pt_t y)); [apply Rmult_le_compat_r; lra|]. apply Rmult_le_compat_l; [lra|]. unfold gap.
  pose proof (Distance_nonneg (pt_v x) (pt_v y)). pose proof (Distance_nonneg (pt_b x) (pt_b y)). pose proof (Distance_nonneg (pt_w x) (pt_w y)). lra.
Qed.
(** The three magnetisations. *)
Lemma vbl_arg (P : pt -> cvec) : (forall x, dom T x -> Norm (P x) <= 2) -> (forall x y, Distance (P x) (P y) <= gap x y) -> vbl P.
Proof.
  intros N D.
  assert (G : forall c : cvec -> R, (forall a, Rabs (c a) <= Norm a) -> (forall a b, Rabs (c a - c b) <= Distance a b) -> bl (fun x => c (P x))).
  { intros c C1 C2. exists 2, 1. split; [lra|]. split; [lra|]. intros x X. split; [apply Rle_trans with (Norm (P x)); auto|]. intros y Y. rewrite Rmult_1_l. apply Rle_trans with (Distance (P x) (P y)); auto. }
  repeat split; apply G; intros; try apply coord_le; apply coord_dist.
Qed.
Ltac parts x y := unfold gap; pose proof (Rabs_pos (pt_t x - pt_t y)); pose proof (Distance_nonneg (pt_v x) (pt_v y)); pose proof (Distance_nonneg (pt_b x) (pt_b y)); pose proof (Distance_nonneg (pt_w x) (pt_w y)); lra.
Lemma vbl_v : vbl pt_v. Proof. apply vbl_arg; [intros x X; apply X|intros x y; parts x y]. Qed.
Lemma vbl_b : vbl pt_b. Proof. apply vbl_arg; [intros x X; apply X|intros x y; parts x y]. Qed.
Lemma vbl_w : vbl pt_w. Proof. apply vbl_arg; [intros x X; apply X|intros x y; parts x y]. Qed.
Lemma vbl_const c : vbl (fun _ => c). Proof. repeat split; apply bl_const. Qed.

Lemma vbl_plus F G : vbl F -> vbl G -> vbl (fun x => Plus (F x) (G x)).
Proof.
  intros (A & B & C) (A' & B' & C'). split; [|split];
    [apply (bl_ext (fun x => cx (F x) + cx (G x)))|apply (bl_ext (fun x => cy (F x) + cy (G x)))|apply (bl_ext (fun x => cz (F x) + cz (G x)))];
    try (apply bl_plus; assumption); intros x _; destruct (F x), (G x); reflexivity.
Qed.
Lemma vbl_scal k F : bl k -> vbl F -> vbl (fun x => Scal (k x) (F x)).
Proof.
  intros Hk (A & B & C). split; [|split];
    [apply (bl_ext (fun x => k x * cx (F x)))|apply (bl_ext (fun x => k x * cy (F x)))|apply (bl_ext (fun x => k x * cz (F x)))];
    try (apply bl_mult; assumption); intros x _; destruct (F x); reflexivity.
Qed.
Lemma bl_dot F G : vbl F -> vbl G -> bl (fun x => Dot (F x) (G x)).
Proof.
  intros (A & B & C) (A' & B' & C'). apply (bl_ext (fun x => cx (F x) * cx (G x) + cy (F x) * cy (G x) + cz (F x) * cz (G x))).
  - intros x _. destruct (F x), (G x). reflexivity.
  - apply bl_plus; [apply bl_plus|]; apply bl_mult; assumption.
Qed.
Lemma vbl_cross F G : vbl F -> vbl G -> vbl (fun x => Cross (F x) (G x)).
Proof.
  intros (A & B & C) (A' & B' & C'). split; [|split];
    [apply (bl_ext (fun x => cy (F x) * cz (G x) - cz (F x) * cy (G x)))|apply (bl_ext (fun x => cz (F x) * cx (G x) - cx (F x) * cz (G x)))|apply (bl_ext (fun x => cx (F x) * cy (G x) - cy (F x) * cx (G x)))];
    try (apply bl_minus; apply bl_mult; assumption); intros x _; destruct (F x), (G x); reflexivity.
Qed.
Lemma vbl_matvec N F : vbl F -> vbl (fun x => MatVec N (F x)).
Proof. intros H. repeat split; unfold MatVec; cbn [cx cy cz]; apply bl_dot; try assumption; apply vbl_const. Qed.
Lemma vbl_ext F G : (forall x, dom T x -> F x = G x) -> vbl F -> vbl G.
Proof. intros E (A & B & C). split; [|split]; eapply bl_ext; [|exact A| |exact B| |exact C]; intros x X; cbn; rewrite (E x X); reflexivity. Qed.

(** ** Drivers *)
Definition sval (d : sdriver) (t : R) : R := match getCurrentScalarValue d t with Ok x => x | Err _ => 0 end.
Definition aval (d : adriver) (t : R) : cvec := CV (sval (ax0 d) t) (sval (ax1 d) t) (sval (ax2 d) t).
Lemma sval_ok d t x : getCurrentScalarValue d t = Ok x -> x = sval d t.
Proof. unfold sval. intros ->. reflexivity. Qed.
Lemma aval_ok d t v : getCurrentAxialDrivers d t = Ok v -> v = aval d t.
Proof.
  unfold getCurrentAxialDrivers, aval, sval. destruct (getCurrentScalarValue (ax0 d) t); [|discriminate]. destruct (getCurrentScalarValue (ax1 d) t); [|discriminate].
  destruct (getCurrentScalarValue (ax2 d) t); [|discriminate]. intros H. injection H as <-. reflexivity.
Qed.
Lemma bl_driver d : tame T d -> bl (fun x => sval d (pt_t x)).
Proof.
  intros (B & K & H). apply (bl_time (sval d) B K). intros t Ht. destruct (H t Ht) as (x & E & BX & L). rewrite <- (sval_ok _ _ _ E). split; [exact BX|].
  intros t' Ht'. destruct (H t' Ht') as (x' & E' & _). rewrite <- (sval_ok _ _ _ E'). auto.
Qed.
Lemma vbl_driver d : tame_axial T d -> vbl (fun x => aval d (pt_t x)).
Proof. intros (A & B & C). repeat split; cbn [aval cx cy cz]; apply bl_driver; assumption. Qed.

(** ** The right-hand side *)
Definition ins (l : layer) (t : R) : field_inputs :=
  FI (aval (l_external l) t) (aval (l_Oersted l) t) (aval (l_Hdmi l) t) (aval (l_Hreserved l) t)
     (sval (l_anisotropy l) t) (sval (l_IECBottom l) t) (sval (l_IECTop l) t) (sval (l_QuadBottom l) t) (sval (l_QuadTop l) t)
     (aval (l_IDMIBottom l) t) (aval (l_IDMITop l) t).
Lemma ins_ok l t i : inputs_at l t i -> i = ins l t.
Proof.
  intros (A & B & C & D & E & F & G & H & I & J & K). destruct i. cbn in *. unfold ins.
  f_equal; first [apply aval_ok; assumption|apply sval_ok; assumption].
Qed.
Definition field (l : layer) (x : pt) : cvec :=
  H_eff l (ins l (pt_t x)) (pt_v x) (pt_b x) (pt_w x) (dipole_total l (pt_b x) (pt_w x)) Zero.

Hint Resolve vbl_v vbl_b vbl_w vbl_const vbl_plus vbl_scal vbl_cross vbl_matvec bl_dot bl_const bl_plus bl_minus bl_mult vbl_driver bl_driver : bl.
Lemma vbl_field l : tame_layer T l -> vbl (field l).
Proof.
  intros (A & B & C & D & E & F & G & H & I & J & K & _). unfold field, H_eff. cbn [Sum fold_right]. unfold IEC_total, IDMI_total, dipole_total, H_anis, H_iec, H_idmi, H_tensor, ins.
  cbn [fi_ext fi_oe fi_dmi fi_res fi_K fi_Jb fi_Jt fi_J2b fi_J2t fi_Db fi_Dt]. unfold Rdiv.
  repeat first [apply vbl_plus | apply vbl_scal | apply vbl_cross | apply vbl_matvec | apply bl_mult | apply bl_plus | apply bl_dot | apply bl_const | apply vbl_const | apply vbl_v | apply vbl_b | apply vbl_w | (apply bl_driver; assumption) | (apply vbl_driver; assumption)].
Qed.
Lemma vbl_polariser l : vbl (fun x => polariser l (pt_b x) (pt_w x)).
Proof. unfold polariser. destruct (l_refType l); auto with bl. Qed.
Lemma vbl_LL alpha F : vbl F -> vbl (fun x => LL alpha (pt_v x) (F x)).
Proof. intros H. unfold LL. auto with bl. Qed.
Definition derivative (l : layer) (x : pt) : cvec :=
  let p := polariser l (pt_b x) (pt_w x) in
  if l_includeSTT l then
    LLG_stt (l_damping l) (l_kappa l) (l_beta l)
      (a_J (sval (l_current l) (pt_t x)) (l_Ms l) (l_thickness l) *
       eta (l_alternativeSTT l) (l_spinPol l) (l_slon l) (Dot (pt_v x) p)) (pt_v x) (field l x) p
  else if l_includeSOT l then
    if l_dynamicSOT l then LLG_sot (l_damping l) (sval (l_dlDriver l) (pt_t x)) (sval (l_flDriver l) (pt_t x)) (pt_v x) (field l x) p
    else LLG_sot (l_damping l) (l_dampingLikeTorque l * sval (l_current l) (pt_t x)) (l_fieldLikeTorque l * sval (l_current l) (pt_t x)) (pt_v x) (field l x) p
  else LLG_plain (l_damping l) (pt_v x) (field l x).
Lemma derivative_ok l t v b w d : rhs l t v b w d -> d = derivative l (PT t v b w).
Proof.
  intros (i & I & _ & _ & F). apply ins_ok in I. subst i. unfold derivative. inversion F; subst; clear F;
    repeat match goal with H : l_includeSTT l = _ |- _ => rewrite H; clear H | H : l_includeSOT l = _ |- _ => rewrite H; clear H | H : l_dynamicSOT l = _ |- _ => rewrite H; clear H
      | H : getCurrentScalarValue _ _ = Ok _ |- _ => apply sval_ok in H; subst end; reflexivity.
Qed.
Lemma vbl_derivative l : tame_layer T l -> vbl (derivative l).
Proof.
  intros H. pose proof (vbl_field l H) as HF. pose proof (vbl_polariser l) as HP. destruct H as (_ & _ & _ & _ & _ & _ & _ & _ & _ & _ & _ & STT & SOT).
  assert (SOTL : forall a f, bl a -> bl f -> vbl (fun x => LLG_sot (l_damping l) (a x) (f x) (pt_v x) (field l x) (polariser l (pt_b x) (pt_w x)))).
  { intros a f A F. unfold LLG_sot. apply vbl_scal; [apply bl_const|]. apply vbl_plus; [apply vbl_LL; exact HF|].
    apply vbl_plus; apply vbl_scal; auto 8 with bl. }
  unfold derivative. destruct (l_includeSTT l) eqn:E1.
  - destruct (STT eq_refl) as [HC (e & He & HE)]. unfold LLG_stt. apply vbl_scal; [apply bl_const|]. apply vbl_plus; [apply vbl_LL; exact HF|].
    assert (AE : bl (fun x => a_J (sval (l_current l) (pt_t x)) (l_Ms l) (l_thickness l) * eta (l_alternativeSTT l) (l_spinPol l) (l_slon l) (Dot (pt_v x) (polariser l (pt_b x) (pt_w x))))).
    { unfold a_J, eta, Rdiv. apply bl_mult; [repeat (apply bl_mult || apply bl_const || (apply bl_driver; exact HC))|]. apply bl_mult; [apply bl_const|].
      apply (bl_inv _ e); [exact He| |].
      - intros x (_ & X & Y & Z). apply HE; assumption.
      - unfold eta_den. destruct (l_alternativeSTT l); auto 8 with bl. }
    apply vbl_plus; apply vbl_scal; auto with bl.
    + apply bl_opp. auto with bl.
  - specialize (SOT eq_refl). destruct (l_includeSOT l) eqn:E2.
    + specialize (SOT eq_refl). destruct (l_dynamicSOT l).
      * destruct SOT as [S1 S2]. apply SOTL; apply bl_driver; assumption.
      * apply SOTL; (apply bl_mult; [apply bl_const|apply bl_driver; exact SOT]).
    + unfold LLG_plain. apply vbl_scal; [apply bl_const|]. apply vbl_LL. exact HF.
Qed.
Lemma tame_regular l : tame_layer T l -> exists M L, 0 <= M /\ 0 <= L /\ regular T M L l.
Proof.
  intros H. destruct (vbl_derivative l H) as ((B1 & K1 & P1 & Q1 & F1) & (B2 & K2 & P2 & Q2 & F2) & (B3 & K3 & P3 & Q3 & F3)).
  exists (B1 + B2 + B3), (K1 + K2 + K3). split; [lra|]. split; [lra|].
  intros t v b w d Ht Hv Hb Hw D. apply derivative_ok in D.
  assert (X : dom T (PT t v b w)) by (repeat split; cbn; try assumption; lra).
  destruct (F1 _ X) as [A1 L1], (F2 _ X) as [A2 L2], (F3 _ X) as [A3 L3]. rewrite <- D in *. split.
  - pose proof (Norm_le_coords d). lra.
  - intros t' v' b' w' d' Ht' Hv' Hb' Hw' D'. apply derivative_ok in D'.
    assert (Y : dom T (PT t' v' b' w')) by (repeat split; cbn; try assumption; lra).
    specialize (L1 _ Y). specialize (L2 _ Y). specialize (L3 _ Y). rewrite <- D' in *.
    assert (G : gap (PT t v b w) (PT t' v' b' w') = Rabs (t - t') + Distance v v' + Distance b b' + Distance w w') by reflexivity. rewrite G in *.
    unfold Distance at 1. pose proof (Norm_le_coords (Minus d d')) as N. rewrite Minus_def in N at 2 3 4. cbn [cx cy cz] in N. lra.
Qed.
End Calculus.

Lemma regular_weaken T M L M' L' l : M <= M' -> L <= L' -> regular T M L l -> regular T M' L' l.
Proof.
  intros HM HL H t v b w d A B C D E. destruct (H t v b w d A B C D E) as [N Lip]. split; [lra|]. intros t' v' b' w' d' A' B' C' D' E'.
  apply Rle_trans with (1 := Lip t' v' b' w' d' A' B' C' D' E'). apply Rmult_le_compat_r; [|exact HL].
  pose proof (Rabs_pos (t - t')). pose proof (Distance_nonneg v v'). pose proof (Distance_nonneg b b'). pose proof (Distance_nonneg w w'). lra.
Qed.
Lemma tame_layers T ls : (forall l, In l ls -> tame_layer T l) -> exists M L, 0 <= M /\ 0 <= L /\ forall l, In l ls -> regular T M L l.
Proof.
  induction ls as [|a ls IH]; intros H; [exists 0, 0; repeat split; try lra; contradiction|].
  destruct IH as (M & L & HM & HL & HR); [intros l Hl; apply H; right; exact Hl|].
  destruct (tame_regular T a (H a (or_introl eq_refl))) as (M' & L' & HM' & HL' & HR').
  exists (Rmax M M'), (Rmax L L'). pose proof (Rmax_l M M'). pose proof (Rmax_r M M'). pose proof (Rmax_l L L'). pose proof (Rmax_r L L').
  split; [lra|]. split; [lra|]. intros l [<-|Hl]; [apply (regular_weaken T M' L')|apply (regular_weaken T M L)]; auto.
Qed.
