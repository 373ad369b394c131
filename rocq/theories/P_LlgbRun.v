(** Lemmas on the steps, runs, log and setters of the Landau-Lifshitz-Bloch junction. *)
From Verif Require Export P_Llgb.
Open Scope R_scope.
Open Scope st_scope.

Lemma moved_eq l l1 l2 m n a b c d : b_static l l1 -> b_static l l2 -> b_mag l1 = m -> b_mag l2 = m -> b_drawn n l l1 -> b_drawn n l l2 ->
  b_logs l1 a b c d -> b_logs l2 a b c d -> l1 = l2.
Proof.
  unfold b_static, b_drawn, b_logs. intros H1 H2 M1 M2 [D1 D2] [E1 E2] (L1 & L2 & L3 & L4) (K1 & K2 & K3 & K4).
  destruct l1, l2, l. cbn in *. decompose [and] H1. decompose [and] H2. clear H1 H2. subst. reflexivity.
Qed.
Lemma inputs_det l t i i' : b_inputs_at l t i -> b_inputs_at l t i' -> i = i'.
Proof. destruct i, i'. unfold b_inputs_at. cbn. intros (A & B & C) (A' & B' & C'). rewrite A in A'. rewrite B in B'. rewrite C in C'. injection A' as ->. injection B' as ->. injection C' as ->. reflexivity. Qed.

Lemma plus_scaled_zero a s : Plus a (Scal s Zero) = a.
Proof. destruct a. vsimp. apply vec_eq; ring. Qed.
Lemma heun_first_iff t dt u l l1 h : b_heun_first t dt u l = (l1, Ok h) <->
  exists i, b_inputs_at l t i /\ 0 <= dt /\ b_thermal l (bi_T i) /\ b_solvable l i (b_mag l) /\
    h = BS (b_rhs l i (b_mag l)) Zero Zero Zero (Plus (b_mag l) (Scal dt (b_rhs l i (b_mag l)))) /\
    l1 = set_b_aperp_log (alpha_perp (b_damping l) (bi_T i) (b_Tc l))
           (after_thermalB (bi_T i) (after_thermalA (bi_T i) (b_logged (bi_T i) (bi_T i) (bi_K i) (bi_T i) l))).
Proof.
  unfold b_heun_first. rewrite get_bind, bind_iff. split.
  - intros (s1 & f & H1 & H). apply llg_iff in H1. destruct H1 as (i & HI & HS & -> & ->).
    rewrite bind_iff in H. destruct H as (s2 & na & H2 & H). apply nonadiabatic_iff in H2.
    destruct H2 as (T & HT & Hc & Hv & HM & Ha & Hva & -> & ->). cbn [b_logged b_temperature set_b_apar_log set_b_aperp_log set_b_T_log set_b_K_log b_Tc b_volume b_Ms b_damping] in *.
    pose proof (proj1 HI) as HT'. rewrite HT in HT'. apply Ok_inj in HT'. subst T.
    rewrite bind_iff in H. destruct H as (s3 & ad & H3 & H). apply adiabatic_iff in H3. destruct H3 as (T & HT3 & _ & _ & _ & Hvb & -> & ->).
    cbn [after_thermalA b_temperature set_b_posA set_b_apar_log set_b_aperp_log set_b_T_log set_b_K_log b_Tc b_volume b_Ms b_damping b_logged] in HT3.
    rewrite HT in HT3. apply Ok_inj in HT3. subst T.
    rewrite bind_iff in H. destruct H as (s4 & gn & H4 & H). apply torque_iff in H4. destruct H4 as (T & HT4 & _ & Hz & -> & ->).
    change (getCurrentScalarValue (b_temperature l) t = Ok T) in HT4. rewrite HT in HT4. apply Ok_inj in HT4. subst T.
    rewrite torque_zero, bind_value in H. destruct H as (s & Hs & H). apply fsqrt_iff in Hs. destruct Hs as [Hd ->].
    rewrite ret_iff in H. destruct H as [-> ->]. exists i. repeat split; auto; try apply HI; try apply HS.
    f_equal. rewrite !vadd_Plus, !vscale_Scal, plus_scaled_zero. reflexivity.
  - intros (i & HI & Hd & (Hc & Hv & HM & Ha & Hva & Hvb) & HS & -> & ->). pose proof (proj1 HI) as HT.
    eexists _, _. split; [apply llg_iff; exists i; auto|].
    rewrite bind_iff. eexists _, _. split; [apply nonadiabatic_iff; exists (bi_T i); repeat split; auto|].
    rewrite bind_iff. eexists _, _. split; [apply adiabatic_iff; exists (bi_T i); repeat split; auto|].
    rewrite bind_iff. eexists _, _. split; [apply torque_iff; exists (bi_T i); repeat split; auto; apply HS|].
    rewrite torque_zero, bind_value. eexists. split; [apply fsqrt_iff; split; [exact Hd|reflexivity]|]. rewrite ret_iff. split; [reflexivity|].
    f_equal. rewrite !vadd_Plus, !vscale_Scal, plus_scaled_zero. reflexivity.
Qed.
Lemma heun_second_iff t dt f m l l' : b_heun_second t dt (BS f Zero Zero Zero m) l = (l', Ok tt) <->
  exists i, b_inputs_at l (t + dt) i /\ 0 <= dt /\ b_solvable l i m /\
    l' = set_b_mag (Plus (b_mag l) (Scal (dt / 2) (Plus f (b_rhs l i m))))
         (set_b_aperp_log (alpha_perp (b_damping l) (bi_T i) (b_Tc l)) (b_logged (bi_T i) (bi_T i) (bi_K i) (bi_T i) l)).
Proof.
  assert (V : forall a b g, vadd (vadd a (vscale (vadd f g) (1 / 2 * dt))) (vscale (vscale (vadd Zero Zero) (1 / 2)) b) = Plus a (Scal (dt / 2) (Plus f g))).
  { intros a b g. rewrite !vadd_Plus, !vscale_Scal. destruct a, f, g. vsimp. apply vec_eq; field. }
  unfold b_heun_second. cbn [bs_fn bs_gn bs_nonAd bs_ad bs_mNext]. rewrite get_bind, bind_iff. split.
  - intros (s1 & g & H1 & H). apply llg_iff in H1. destruct H1 as (i & HI & HS & -> & ->).
    rewrite bind_iff in H. destruct H as (s4 & gn & H4 & H). apply torque_iff in H4. destruct H4 as (T & HT4 & _ & Hz & -> & ->).
    change (getCurrentScalarValue (b_temperature l) (t + dt) = Ok T) in HT4. rewrite (proj1 HI) in HT4. apply Ok_inj in HT4. subst T.
    rewrite torque_zero, bind_value in H. destruct H as (s & Hs & H). apply fsqrt_iff in Hs. destruct Hs as [Hd ->].
    unfold modify in H. injection H as <-. exists i. rewrite V. repeat split; auto; try apply HI; apply HS.
  - intros (i & HI & Hd & HS & ->). eexists _, _. split; [apply llg_iff; exists i; auto|].
    rewrite bind_iff. eexists _, _. split; [apply torque_iff; exists (bi_T i); repeat split; auto; try apply HI; apply HS|].
    rewrite torque_zero, bind_value. eexists. split; [apply fsqrt_iff; split; [exact Hd|reflexivity]|]. unfold modify. rewrite V. reflexivity.
Qed.
Lemma inputs_static l l' t i : b_static l l' -> b_inputs_at l' t i <-> b_inputs_at l t i.
Proof. unfold b_static, b_inputs_at. intros H. decompose [and] H. clear H. repeat match goal with E : _ = _ |- _ => rewrite E; clear E end. tauto. Qed.
Lemma heun_layer_iff t dt l l' : (exists l1 h, b_heun_first t dt tt l = (l1, Ok h) /\ b_heun_second t dt h l1 = (l', Ok tt)) <-> heun_moves t dt l l'.
Proof.
  assert (P : forall i i2 l', let f1 := b_rhs l i (b_mag l) in let g := Plus (b_mag l) (Scal dt f1) in
     let l1 := set_b_aperp_log (alpha_perp (b_damping l) (bi_T i) (b_Tc l)) (after_thermalB (bi_T i) (after_thermalA (bi_T i) (b_logged (bi_T i) (bi_T i) (bi_K i) (bi_T i) l))) in
     l' = set_b_mag (Plus (b_mag l1) (Scal (dt / 2) (Plus f1 (b_rhs l1 i2 g))))
         (set_b_aperp_log (alpha_perp (b_damping l1) (bi_T i2) (b_Tc l1)) (b_logged (bi_T i2) (bi_T i2) (bi_K i2) (bi_T i2) l1)) ->
     b_mag l' = Plus (b_mag l) (Scal (dt / 2) (Plus f1 (b_rhs l i2 g))) /\ b_static l l' /\ b_drawn 3 l l' /\ b_logs l' (bi_T i2) (bi_T i2) (bi_K i2) (bi_T i2)).
  { intros i i2 l2 f1 g l1 ->. split; [reflexivity|]. split; [unfold b_static; cbn; repeat split|]. split; [unfold b_drawn; split; reflexivity|unfold b_logs; repeat split]. }
  split.
  - intros (l1 & h & H1 & H2). apply heun_first_iff in H1. destruct H1 as (i & HI & Hd & Hth & HS & -> & ->).
    apply heun_second_iff in H2. destruct H2 as (i2 & HI2 & _ & HS2 & E).
    exists i, i2. split; [exact HI|]. split; [exact HI2|]. split; [exact Hd|]. split; [exact Hth|]. split; [exact HS|]. cbv zeta.
    split; [exact HS2|]. exact (P i i2 l' E).
  - intros (i & i2 & HI & HI2 & Hd & Hth & HS & HS2 & Hm & HST & HDR & HLG). cbv zeta in *.
    eexists _, _. split; [apply heun_first_iff; exists i; split; [exact HI|]; split; [exact Hd|]; split; [exact Hth|]; split; [exact HS|]; split; reflexivity|].
    apply heun_second_iff. exists i2. split; [exact HI2|]. split; [exact Hd|]. split; [exact HS2|].
    destruct (P i i2 _ eq_refl) as (Em & ES & ED & EL). eapply (moved_eq l); eassumption.
Qed.
Lemma euler_first_iff t dt u l l1 m : b_eulerHeun_first t dt u l = (l1, Ok m) <->
  exists i T2, b_inputs_at l t i /\ getCurrentScalarValue (b_temperature l) (t + dt) = Ok T2 /\ 0 <= dt /\ b_thermal l (bi_T i) /\ b_solvable l i (b_mag l) /\
    m = Plus (b_mag l) (Scal dt (b_rhs l i (b_mag l))) /\
    l1 = set_b_aperp_log (alpha_perp (b_damping l) T2 (b_Tc l)) (set_b_aperp_log (alpha_perp (b_damping l) (bi_T i) (b_Tc l))
           (b_logged (bi_T i) (bi_T i) (bi_K i) (bi_T i) (after_thermalB (bi_T i) (after_thermalA (bi_T i) l)))).
Proof.
  assert (V : forall a f b, vadd (vadd a (vscale f dt)) (vscale (vscale (vadd Zero Zero) (1 / 2)) b) = Plus a (Scal dt f)).
  { intros a f b. rewrite !vadd_Plus, !vscale_Scal. destruct a, f. vsimp. apply vec_eq; field. }
  assert (W : forall a b, vadd a (vscale Zero b) = a).
  { intros [x y z] b. rewrite vadd_Plus, vscale_Scal. vsimp. apply vec_eq; ring. }
  unfold b_eulerHeun_first. rewrite get_bind, bind_iff. split.
  - intros (s1 & na & H1 & H). apply nonadiabatic_iff in H1. destruct H1 as (T & HT & Hc & Hv & HM & Ha & Hva & -> & ->).
    rewrite bind_iff in H. destruct H as (s2 & ad & H2 & H). apply adiabatic_iff in H2. destruct H2 as (T' & HT2 & _ & _ & _ & Hvb & -> & ->).
    change (getCurrentScalarValue (b_temperature l) t = Ok T') in HT2. rewrite HT in HT2. apply Ok_inj in HT2. subst T'.
    rewrite bind_iff in H. destruct H as (s3 & f & H3 & H). apply llg_iff in H3. destruct H3 as (i & HI & HS & -> & ->).
    change (b_inputs_at l t i) in HI. change (b_solvable l i (b_mag l)) in HS. pose proof (proj1 HI) as HT'. rewrite HT in HT'. apply Ok_inj in HT'. subst T.
    rewrite bind_iff in H. destruct H as (s4 & gn & H4 & H). apply torque_iff in H4. destruct H4 as (T & HT4 & _ & Hz & -> & ->).
    change (getCurrentScalarValue (b_temperature l) t = Ok T) in HT4. rewrite HT in HT4. apply Ok_inj in HT4. subst T.
    rewrite torque_zero, bind_value in H. destruct H as (s & Hs & H). apply fsqrt_iff in Hs. destruct Hs as [Hd ->].
    rewrite W in H. rewrite bind_iff in H. destruct H as (s5 & gn' & H5 & H). apply torque_iff in H5. destruct H5 as (T2 & HT5 & _ & _ & -> & ->).
    change (getCurrentScalarValue (b_temperature l) (t + dt) = Ok T2) in HT5. rewrite torque_zero, ret_iff, V in H. destruct H as [-> ->].
    exists i, T2. split; [exact HI|]. split; [exact HT5|]. split; [exact Hd|]. split; [repeat split; assumption|]. split; [exact HS|]. split; reflexivity.
  - intros (i & T2 & HI & HT2 & Hd & (Hc & Hv & HM & Ha & Hva & Hvb) & HS & -> & ->). pose proof (proj1 HI) as HT.
    eexists _, _. split; [apply nonadiabatic_iff; exists (bi_T i); repeat split; auto|].
    rewrite bind_iff. eexists _, _. split; [apply adiabatic_iff; exists (bi_T i); repeat split; auto|].
    rewrite bind_iff. eexists _, _. split; [apply llg_iff; exists i; split; [exact HI|]; split; [exact HS|]; split; reflexivity|].
    rewrite bind_iff. eexists _, _. split; [apply torque_iff; exists (bi_T i); split; [exact HT|]; split; [exact Hc|]; split; [apply HS|]; split; reflexivity|].
    rewrite torque_zero, bind_value. eexists. split; [apply fsqrt_iff; split; [exact Hd|reflexivity]|]. rewrite W.
    rewrite bind_iff. eexists _, _. split; [apply torque_iff; exists T2; split; [exact HT2|]; split; [exact Hc|]; split; [apply HS|]; split; reflexivity|].
    rewrite torque_zero, ret_iff, V. split; reflexivity.
Qed.
Lemma euler_layer_iff t dt l l' : (exists l1 m, b_eulerHeun_first t dt tt l = (l1, Ok m) /\ b_eulerHeun_second m l1 = (l', Ok tt)) <-> euler_moves t dt l l'.
Proof.
  assert (P : forall i T2 l', l' = set_b_mag (Plus (b_mag l) (Scal dt (b_rhs l i (b_mag l))))
     (set_b_aperp_log (alpha_perp (b_damping l) T2 (b_Tc l)) (set_b_aperp_log (alpha_perp (b_damping l) (bi_T i) (b_Tc l))
           (b_logged (bi_T i) (bi_T i) (bi_K i) (bi_T i) (after_thermalB (bi_T i) (after_thermalA (bi_T i) l))))) ->
     b_mag l' = Plus (b_mag l) (Scal dt (b_rhs l i (b_mag l))) /\ b_static l l' /\ b_drawn 3 l l' /\ b_logs l' T2 (bi_T i) (bi_K i) (bi_T i)).
  { intros i T2 l2 ->. split; [reflexivity|]. split; [unfold b_static; cbn; repeat split|]. split; [unfold b_drawn; split; reflexivity|unfold b_logs; repeat split]. }
  split.
  - intros (l1 & m & H1 & H2). apply euler_first_iff in H1. destruct H1 as (i & T2 & HI & HT2 & Hd & Hth & HS & -> & ->).
    unfold b_eulerHeun_second, modify in H2. injection H2 as E. symmetry in E.
    exists i, T2. split; [exact HI|]. split; [exact HT2|]. split; [exact Hd|]. split; [exact Hth|]. split; [exact HS|]. exact (P i T2 l' E).
  - intros (i & T2 & HI & HT2 & Hd & Hth & HS & Hm & HST & HDR & HLG).
    eexists _, _. split; [apply euler_first_iff; exists i, T2; split; [exact HI|]; split; [exact HT2|]; split; [exact Hd|]; split; [exact Hth|]; split; [exact HS|]; split; reflexivity|].
    unfold b_eulerHeun_second, modify. f_equal. destruct (P i T2 _ eq_refl) as (Em & ES & ED & EL). eapply (moved_eq l); eassumption.
Qed.

(** Two passes over the layers. *)
Lemma each_two {B} (f : unit -> ST blayer B) (g : B -> ST blayer unit) (Rel : blayer -> blayer -> Prop) :
  (forall l l', (exists l1 h, f tt l = (l1, Ok h) /\ g h l1 = (l', Ok tt)) <-> Rel l l') ->
  forall ls ls', (exists ls1 hs us, b_each f (map (fun _ => tt) ls) ls = (ls1, Ok hs) /\ b_each g hs ls1 = (ls', Ok us)) <-> Forall2 Rel ls ls'.
Proof.
  intros HR. induction ls as [|l ls IH]; intros ls'.
  - cbn. split.
    + intros (ls1 & hs & us & E1 & E2). injection E1 as <- <-. cbn in E2. injection E2 as <- <-. constructor.
    + intros H. inversion H. exists [], [], []. split; reflexivity.
  - cbn [map b_each]. split.
    + intros (ls1 & hs & us & E1 & E2). destruct (f tt l) as [l1 [h|e]] eqn:F; [|discriminate].
      destruct (b_each f (map (fun _ => tt) ls) ls) as [r1 [ys|e]] eqn:FE; [|discriminate]. injection E1 as <- <-.
      cbn [b_each] in E2. destruct (g h l1) as [l' [u|e]] eqn:G; [|discriminate].
      destruct (b_each g ys r1) as [r' [us'|e]] eqn:GE; [|discriminate]. injection E2 as <- <-. constructor.
      * apply HR. exists l1, h. destruct u. auto.
      * apply IH. exists r1, ys, us'. auto.
    + intros H. inversion H as [|a b c d HL HT]; subst. apply HR in HL. destruct HL as (l1 & h & F & G). apply IH in HT.
      destruct HT as (r1 & ys & us & FE & GE). exists (l1 :: r1), (h :: ys), (tt :: us). rewrite F, FE. split; [reflexivity|].
      cbn [b_each]. rewrite G, GE. reflexivity.
Qed.
Lemma heun_step_iff t dt j j' : b_heunSolverStep t dt j = (j', Ok tt) <->
  Forall2 (heun_moves t dt) (bj_layers j) (bj_layers j') /\ j' = set_bj_layers (bj_layers j') j.
Proof.
  rewrite <- (each_two (b_heun_first t dt) (b_heun_second t dt) _ (heun_layer_iff t dt)). unfold b_heunSolverStep. split.
  - destruct (b_each (b_heun_first t dt) _ _) as [ls1 [hs|e]] eqn:E1; [|discriminate].
    destruct (b_each (b_heun_second t dt) hs ls1) as [ls' [us|e]] eqn:E2; [|discriminate]. intros H. injection H as <-.
    split; [exists ls1, hs, us; auto|reflexivity].
  - intros ((ls1 & hs & us & E1 & E2) & ->). rewrite E1, E2. reflexivity.
Qed.
Lemma euler_step_iff t dt j j' : b_eulerHeunSolverStep t dt j = (j', Ok tt) <->
  Forall2 (euler_moves t dt) (bj_layers j) (bj_layers j') /\ j' = set_bj_layers (bj_layers j') j.
Proof.
  rewrite <- (each_two (b_eulerHeun_first t dt) b_eulerHeun_second _ (euler_layer_iff t dt)). unfold b_eulerHeunSolverStep. split.
  - destruct (b_each (b_eulerHeun_first t dt) _ _) as [ls1 [hs|e]] eqn:E1; [|discriminate].
    destruct (b_each b_eulerHeun_second hs ls1) as [ls' [us|e]] eqn:E2; [|discriminate]. intros H. injection H as <-.
    split; [exists ls1, hs, us; auto|reflexivity].
  - intros ((ls1 & hs & us & E1 & E2) & ->). rewrite E1, E2. reflexivity.
Qed.
Lemma step_mode_iff mode runner t dt j j' : b_getSolver mode = Ok runner -> (runner t dt j = (j', Ok tt) <->
  Forall2 (b_moves mode t dt) (bj_layers j) (bj_layers j') /\ j' = set_bj_layers (bj_layers j') j).
Proof. destruct mode; cbn; intros H; try discriminate; injection H as <-; [apply euler_step_iff|apply heun_step_iff]. Qed.
Lemma solver_iff mode : (exists runner, b_getSolver mode = Ok runner) <-> mode = HEUN \/ mode = EULER_HEUN.
Proof.
  split.
  - intros [r H]. destruct mode; try discriminate; auto.
  - intros [-> | ->]; eexists; reflexivity.
Qed.

(** ** Log *)
Lemma log_layer_push l g : b_log_layer g l = push_all (b_layer_row l) g.
Proof. reflexivity. Qed.
Lemma log_layers_push ls g : fold_left b_log_layer ls g = push_all (flat_map b_layer_row ls) g.
Proof.
  revert g. induction ls as [|l ls IH]; intros g; [reflexivity|]. cbn [fold_left flat_map]. rewrite IH, log_layer_push.
  unfold push_all. rewrite fold_left_app. reflexivity.
Qed.
Lemma log_row_push t dt j : b_logLayerParams t dt j = (set_bj_log (push_all (b_row (bj_layers j) t) (bj_log j)) (S (bj_logLength j)) j, Ok tt).
Proof. unfold b_logLayerParams, b_row. rewrite log_layers_push. unfold push_all. rewrite fold_left_app. reflexivity. Qed.
