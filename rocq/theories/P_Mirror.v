(** Proofs about stacks built upside down (C105). *)
From Verif Require Import S_Mirror P_Reach P_RunEx.
From Verif Require Export P_Reach S_Mirror.
Open Scope R_scope.
Open Scope st_scope.

Ltac layer_eq := match goal with l : layer |- _ => destruct l end; cbv -[Rplus Rmult Req_EM_T R0 R1 IZR Nat.add]; reflexivity.
Lemma flip_twice l : flip (flip l) = l.
Proof. destruct l as [id mg an ms th cv cs dm db dt da ft dl sl be ka sp st so dy al ts n1 n2 pk rf rt]. destruct rt; cbv -[Rplus Rmult]; reflexivity. Qed.
Lemma flip_mag l : l_mag (flip l) = l_mag l. Proof. reflexivity. Qed.
Lemma flip_set_mag m l : flip (set_l_mag m l) = set_l_mag m (flip l).
Proof. layer_eq. Qed.
Lemma flip_set_cache c l : flip (set_l_cache c l) = set_l_cache c (flip l).
Proof. layer_eq. Qed.
Lemma flip_advance l : flip (advance_noise l) = advance_noise (flip l).
Proof. layer_eq. Qed.
Lemma flip_nScale l : l_nScale (flip l) = l_nScale l. Proof. reflexivity. Qed.
Lemma flip_sources l : flip (set_l_ngen (S (l_ngen l)) (set_l_bfn (Some (VN (l_nAxis l) (l_nScale l) (l_nsrc l (l_ngen l)) 0)) l)) =
  set_l_ngen (S (l_ngen (flip l))) (set_l_bfn (Some (VN (l_nAxis (flip l)) (l_nScale (flip l)) (l_nsrc (flip l) (l_ngen (flip l))) 0)) (flip l)).
Proof. layer_eq. Qed.
Lemma flip_prepared l : flip (prepared l) = prepared (flip l).
Proof.
  unfold prepared. destruct (Req_EM_T (l_nScale (flip l)) 0) as [A|A], (Req_EM_T (l_nScale l) 0) as [B|B]; rewrite flip_nScale in A; try contradiction; [reflexivity|apply flip_sources].
Qed.
Lemma flip_noise l t w : noise_spec l t w <-> noise_spec (flip l) t w.
Proof. reflexivity. Qed.
Lemma Plus_comm' u v : Plus u v = Plus v u.
Proof. destruct u, v. cbn. apply vec_eq; ring. Qed.
Lemma flip_polariser l b top : polariser (flip l) top b = polariser l b top.
Proof. unfold polariser. cbn. destruct (l_refType l); reflexivity. Qed.
Definition swapped (i : field_inputs) : field_inputs :=
  FI (fi_ext i) (fi_oe i) (fi_dmi i) (fi_res i) (fi_K i) (fi_Jt i) (fi_Jb i) (fi_J2t i) (fi_J2b i) (fi_Dt i) (fi_Db i).
Lemma flip_field l i m b top : H_eff (flip l) (swapped i) m top b (dipole_total (flip l) top b) Zero = H_eff l i m b top (dipole_total l b top) Zero.
Proof.
  assert (A : IEC_total (flip l) (swapped i) m top b = IEC_total l i m b top) by (unfold IEC_total; rewrite Plus_comm'; reflexivity).
  assert (B : IDMI_total (flip l) (swapped i) top b = IDMI_total l i b top) by (unfold IDMI_total; rewrite Plus_comm'; reflexivity).
  assert (C : dipole_total (flip l) top b = dipole_total l b top) by (unfold dipole_total; rewrite Plus_comm'; reflexivity).
  unfold H_eff. rewrite A, B, C. reflexivity.
Qed.
Lemma flip_rhs l t m b top d : rhs l t m b top d -> rhs (flip l) t m top b d.
Proof.
  intros (i & (I1 & I2 & I3 & I4 & I5 & I6 & I7 & I8 & I9 & I10 & I11) & HM & HT & HL). exists (swapped i).
  split. { unfold inputs_at, swapped. cbn. auto 20. }
  split; [exact HM|]. split; [exact HT|]. rewrite flip_field.
  revert HL. generalize (H_eff l i m b top (dipole_total l b top) Zero). intros H HL.
  destruct HL as [A B|I A B C D E|hdl hfl A B C D E|I A B C D].
  - apply (llg_plain (flip l)); assumption.
  - pose proof (llg_stt (flip l) t m top b H I A B C D) as X. rewrite flip_polariser in X. exact (X E).
  - pose proof (llg_sot_dynamic (flip l) t m top b H hdl hfl A B C D E) as X. rewrite flip_polariser in X. exact X.
  - pose proof (llg_sot_static (flip l) t m top b H I A B C D) as X. rewrite flip_polariser in X. exact X.
Qed.
(** The same with the layer of the other stack. *)
Lemma twin_rhs l m t x b top d : alike (flip l) m -> rhs l t x b top d -> rhs m t x top b d.
Proof. intros A H. apply (static_rhs (flip l)); [apply alike_static, A|apply flip_rhs, H]. Qed.
Lemma twin_noise l m t w : alike (flip l) m -> noise_spec l t w -> noise_spec m t w.
Proof. intros A H. apply (alike_noise _ _ t w A), flip_noise, H. Qed.
Lemma twin_mag l m : alike (flip l) m -> l_mag m = l_mag l.
Proof. intros A. rewrite (alike_mag _ _ A). reflexivity. Qed.
Lemma twin_damping l m : alike (flip l) m -> l_damping m = l_damping l.
Proof. intros [c ->]. reflexivity. Qed.

(** ** Neighbours *)
Lemma opposite_layer a b p q m : mirrored a b -> opposite (length (j_layers a)) p q -> nth_error (j_layers b) q = Some m -> exists l, nth_error (j_layers a) p = Some l /\ alike (flip l) m.
Proof.
  intros [L H] O E. destruct (nth_error (j_layers a) p) as [l|] eqn:A; [exists l; split; [reflexivity|exact (H p q l m O A E)]|].
  apply nth_error_None in A. unfold opposite in O. lia.
Qed.
(** Two lists of vectors in opposite order *)
Definition reversed (us vs : list cvec) : Prop := length vs = length us /\ forall p q, opposite (length us) p q -> nth q vs Zero = nth p us Zero.
Lemma mirrored_mags a b : mirrored a b -> reversed (mags (j_layers a)) (mags (j_layers b)).
Proof.
  intros H. pose proof H as [L _]. unfold reversed, mags. rewrite !map_length. split; [exact L|]. intros p q O.
  destruct (nth_error (j_layers b) q) as [m|] eqn:E; [|apply nth_error_None in E; unfold opposite in O; lia].
  destruct (opposite_layer _ _ _ _ _ H O E) as (l & A & T).
  rewrite (nth_error_nth _ _ Zero (map_nth_error l_mag _ _ A)), (nth_error_nth _ _ Zero (map_nth_error l_mag _ _ E)). apply twin_mag, T.
Qed.
Lemma reversed_below us vs p q : reversed us vs -> opposite (length us) p q -> below vs q = above us p.
Proof.
  unfold opposite. intros [L H] O. destruct q as [|q]; cbn [below]; unfold above.
  - rewrite nth_overflow by lia. reflexivity.
  - apply H. unfold opposite. lia.
Qed.
Lemma reversed_above us vs p q : reversed us vs -> opposite (length us) p q -> above vs q = below us p.
Proof.
  unfold opposite. intros [L H] O. destruct p as [|p]; cbn [below]; unfold above.
  - rewrite nth_overflow by lia. reflexivity.
  - apply H. unfold opposite. lia.
Qed.

(** ** One step *)
Lemma twin_multi l l' m us vs p q t dt : reversed us vs -> opposite (length us) p q -> alike (flip l) m -> RK4_multi_rel us t dt p l l' ->
  RK4_multi_rel vs t dt q m (flip l').
Proof.
  intros V O A (S & c & E). unfold RK4_multi_rel. rewrite flip_mag. split.
  - rewrite (reversed_below _ _ _ _ V O), (reversed_above _ _ _ _ V O), (twin_mag _ _ A). refine (rk4_weaken _ _ _ _ _ _ _ S). intros s x d. apply twin_rhs, A.
  - exists c. rewrite E at 1. rewrite flip_set_mag, flip_set_cache. destruct A as [x ->]. rewrite set_cache_twice. reflexivity.
Qed.
Lemma twin_single l l' m p t dt : p = 0%nat -> alike (flip l) m -> RK4_single_rel t dt p l l' -> RK4_single_rel t dt p m (flip l').
Proof.
  intros -> A (S & c & E). cbn [RK4_single_rel]. rewrite flip_mag. split.
  - rewrite (twin_mag _ _ A). refine (rk4_weaken _ _ _ _ _ _ _ S). intros s x d. apply twin_rhs, A.
  - exists c. rewrite E at 1. rewrite flip_set_mag, flip_set_cache. destruct A as [x ->]. rewrite set_cache_twice. reflexivity.
Qed.
Lemma twin_result l l' m c : alike (flip l) m -> l' = set_l_mag (l_mag l') (set_l_cache c (advance_noise l)) -> flip l' = set_l_mag (l_mag l') (set_l_cache c (advance_noise m)).
Proof. intros [x ->] E. rewrite E at 1. rewrite flip_set_mag, flip_set_cache, flip_advance, advance_cache, set_cache_twice. reflexivity. Qed.
Lemma twin_eh l l' m us vs p q t dt : reversed us vs -> opposite (length us) p q -> alike (flip l) m -> EulerHeun_rel us t dt p l l' ->
  EulerHeun_rel vs t dt q m (flip l').
Proof.
  intros V O A (w & c & NS & (D & f & F & X) & E). exists w, c. split; [apply (twin_noise _ _ _ _ A NS)|]. rewrite flip_mag. split.
  - split; [exact D|]. exists f. cbv beta zeta in X |- *. rewrite (twin_mag _ _ A), (twin_damping _ _ A), (reversed_below _ _ _ _ V O), (reversed_above _ _ _ _ V O).
    split; [apply (twin_rhs _ _ _ _ _ _ _ A F)|exact X].
  - apply (twin_result l l' m c A E).
Qed.
Lemma reversed_nth us vs p q u : reversed us vs -> opposite (length us) p q -> nth_error us p = Some u -> nth_error vs q = Some u.
Proof.
  intros [L H] O E. specialize (H p q O). rewrite (nth_error_nth _ _ Zero E) in H. unfold opposite in O.
  destruct (nth_error vs q) as [v|] eqn:F; [|apply nth_error_None in F; lia]. rewrite (nth_error_nth _ _ Zero F) in H. congruence.
Qed.
Lemma twin_heun l l' m us vs ws ws' ps ps' p q t dt : reversed us vs -> reversed ws ws' -> reversed ps ps' -> length ws = length us -> length ps = length us ->
  opposite (length us) p q -> alike (flip l) m -> Heun_rel us ws ps t dt p l l' -> Heun_rel vs ws' ps' t dt q m (flip l').
Proof.
  intros V W P LW LP O A (w & x & c & Ew & Ep & NS & (D & f & F & X) & (g & g' & G & G' & Y) & E).
  assert (OW : opposite (length ws) p q) by (rewrite LW; exact O). assert (OP : opposite (length ps) p q) by (rewrite LP; exact O).
  exists w, x, c. split; [exact (reversed_nth _ _ _ _ _ W OW Ew)|]. split; [exact (reversed_nth _ _ _ _ _ P OP Ep)|]. split; [apply (twin_noise _ _ _ _ A NS)|].
  rewrite flip_mag. unfold Heun_predictor, Heun_corrector. rewrite (twin_mag _ _ A), (twin_damping _ _ A), (reversed_below _ _ _ _ V O), (reversed_above _ _ _ _ V O), (reversed_below _ _ _ _ P OP), (reversed_above _ _ _ _ P OP).
  split; [split; [exact D|]; exists f; split; [apply (twin_rhs _ _ _ _ _ _ _ A F)|exact X]|]. split.
  - exists g, g'. split; [apply (twin_rhs _ _ _ _ _ _ _ A G)|]. split; [apply (twin_rhs _ _ _ _ _ _ _ A G')|exact Y].
  - apply (twin_result l l' m c A E).
Qed.
Lemma reverse_exists (us : list cvec) : exists vs, reversed us vs.
Proof.
  exists (rev us). split; [apply rev_length|]. intros p q O. unfold opposite in O. rewrite rev_nth by lia. f_equal. lia.
Qed.

(** The other stack after the step, up to what is remembered. *)
Definition image (a' b : junction) : junction := set_j_layers (rev (map flip (j_layers a'))) b.
Lemma image_nth a' b p q l' : opposite (length (j_layers a')) p q -> nth_error (j_layers a') p = Some l' -> nth_error (j_layers (image a' b)) q = Some (flip l').
Proof.
  intros O E. unfold opposite in O. cbn [image j_layers set_j_layers]. rewrite (nth_error_nth' _ (flip l')) by (rewrite rev_length, map_length; lia).
  f_equal. rewrite rev_nth by (rewrite map_length; lia). rewrite map_length. replace (length (j_layers a') - S q)%nat with p by lia.
  rewrite (nth_error_nth _ _ _ (map_nth_error flip _ _ E)). reflexivity.
Qed.
Lemma image_stepwise (P Q : nat -> layer -> layer -> Prop) a a' b : mirrored a b -> stepwise P a a' ->
  (forall p q l l' m, opposite (length (j_layers a)) p q -> alike (flip l) m -> P p l l' -> Q q m (flip l')) -> stepwise Q b (image a' b).
Proof.
  intros H (_ & LA & PA) HQ. pose proof H as [L _]. split; [reflexivity|]. split; [cbn [image j_layers set_j_layers]; rewrite rev_length, map_length; congruence|].
  intros q m m' Em Em'. assert (B : (q < length (j_layers b))%nat) by (apply nth_error_Some; congruence).
  set (p := (length (j_layers a) - 1 - q)%nat). assert (O : opposite (length (j_layers a)) p q) by (unfold opposite, p; lia).
  destruct (opposite_layer _ _ _ _ _ H O Em) as (l & El & A). destruct (nth_error_same_length _ _ _ _ LA El) as [l' El'].
  assert (O' : opposite (length (j_layers a')) p q) by (rewrite LA; exact O).
  pose proof (image_nth a' b p q l' O' El') as X. assert (E : m' = flip l') by congruence. subst m'.
  exact (HQ p q l l' m O A (PA p l l' El El')).
Qed.
(** A step that gives the layers of the image their magnetisations gives the image. *)
Lemma image_reached (g : layer -> layer) a a' b b' : mirrored a b -> (forall l, flip (g l) = g (flip l)) -> (forall c l, g (set_l_cache c l) = set_l_cache c (g l)) ->
  stepwise (fun _ l l' => exists c, l' = set_l_mag (l_mag l') (set_l_cache c (g l))) a a' ->
  stepwise (fun _ l l' => exists c, l' = set_l_mag (l_mag l') (set_l_cache c (g l))) b b' ->
  mags (j_layers b') = mags (j_layers (image a' b)) -> mirrored a' b'.
Proof.
  intros H GF GC (_ & LA & PA) (_ & LB & PB) EM. pose proof H as [L T]. split; [congruence|].
  intros p q l' m' O El' Em'. rewrite LA in O. destruct (nth_error_same_length _ _ _ _ (eq_sym LA) El') as [l El]. destruct (nth_error_same_length _ _ _ _ (eq_sym LB) Em') as [m Em].
  pose proof (T p q l m O El Em) as [x ->]. destruct (PA p l l' El El') as [c1 E1]. destruct (PB q _ m' Em Em') as [c2 E2].
  assert (O' : opposite (length (j_layers a')) p q) by (rewrite LA; exact O).
  assert (EQ : l_mag m' = l_mag l').
  { pose proof (map_nth_error l_mag _ _ Em') as X. pose proof (map_nth_error l_mag _ _ (image_nth a' b p q l' O' El')) as Y. fold (mags (j_layers b')) in X. fold (mags (j_layers (image a' b))) in Y.
    rewrite EM, Y in X. injection X as X. first [exact X|symmetry; exact X]. }
  exists c2. rewrite E2, EQ, GC, set_cache_twice. rewrite E1 at 2. rewrite flip_set_mag, flip_set_cache, GF. generalize (g (flip l)) (l_mag l'). intros k u. destruct k; reflexivity.
Qed.
Lemma stepwise_weaken (P Q : nat -> layer -> layer -> Prop) a b : (forall p l l', P p l l' -> Q p l l') -> stepwise P a b -> stepwise Q a b.
Proof. intros H (A & B & C). split; [exact A|]. split; [exact B|]. intros p l l' X Y. apply H, (C p l l' X Y). Qed.
Lemma step_mirror r t dt a b a' : mirrored a b -> (r = RunSingle -> layerNo a = 1%nat) -> run_runner r t dt a = (a', Ok tt) ->
  exists b', run_runner r t dt b = (b', Ok tt) /\ mirrored a' b'.
Proof.
  intros H HS E. pose proof (mirrored_mags _ _ H) as V. pose proof H as [L _].
  assert (LM : length (mags (j_layers a)) = length (j_layers a)) by (unfold mags; apply map_length).
  assert (G1 : forall x y : junction, stepwise (fun _ l l' => exists c, l' = set_l_mag (l_mag l') (set_l_cache c l)) a x -> stepwise (fun _ l l' => exists c, l' = set_l_mag (l_mag l') (set_l_cache c l)) b y ->
    mags (j_layers y) = mags (j_layers (image x b)) -> mirrored x y) by (intros x y; apply (image_reached (fun l => l) a x b y H); reflexivity).
  assert (G2 : forall x y : junction, stepwise (fun _ l l' => exists c, l' = set_l_mag (l_mag l') (set_l_cache c (advance_noise l))) a x -> stepwise (fun _ l l' => exists c, l' = set_l_mag (l_mag l') (set_l_cache c (advance_noise l))) b y ->
    mags (j_layers y) = mags (j_layers (image x b)) -> mirrored x y) by (intros x y; apply (image_reached advance_noise a x b y H); [exact flip_advance|exact advance_cache]).
  destruct r; cbn [run_runner] in *.
  - specialize (HS eq_refl). unfold layerNo in HS. pose proof E as NE. apply single_sound in E.
    assert (Z : forall p q, opposite (length (j_layers a)) p q -> p = 0%nat /\ q = 0%nat) by (unfold opposite; lia).
    destruct (single_complete t dt b (image a' b)) as (b' & E' & EM).
    { intros X. rewrite X in L. cbn in L. lia. }
    { apply (image_stepwise _ _ _ _ _ H E). intros p q l l' m O A X. destruct (Z p q O) as [-> ->]. exact (twin_single _ _ _ _ _ _ eq_refl A X). }
    exists b'. split; [exact E'|]. pose proof E' as S'. apply single_sound in S'.
    assert (K : forall x y, layerNo x = 1%nat -> stepwise (RK4_single_rel t dt) x y -> stepwise (fun _ l l' => exists c, l' = set_l_mag (l_mag l') (set_l_cache c l)) x y).
    { intros x y Lx (A & B & C). split; [exact A|]. split; [exact B|]. intros p l l' X Y. assert (PL : (p < length (j_layers x))%nat) by (apply nth_error_Some; congruence). unfold layerNo in Lx. assert (p = 0%nat) by lia. subst p. apply (C 0%nat l l' X Y). }
    apply G1; [apply K; assumption|apply K; [unfold layerNo; congruence|exact S']|exact EM].
  - apply multi_sound in E. destruct (multi_complete t dt b (image a' b)) as (b' & E' & EM).
    { apply (image_stepwise _ _ _ _ _ H E). intros p q l l' m O A X. rewrite <- LM in O. exact (twin_multi _ _ _ _ _ _ _ _ _ V O A X). }
    exists b'. split; [exact E'|]. apply multi_sound in E'.
    apply G1; [refine (stepwise_weaken _ _ _ _ _ E)|refine (stepwise_weaken _ _ _ _ _ E')|exact EM]; intros p l l' X; apply X.
  - apply heun_sound in E. destruct E as (ws & ps & LW & LP & E). destruct (reverse_exists ws) as [ws' RW], (reverse_exists ps) as [ps' RP].
    destruct (heun_complete t dt b (image a' b) ws' ps') as (b' & E' & EM).
    { destruct RW as [X _]. congruence. } { destruct RP as [X _]. congruence. }
    { apply (image_stepwise _ _ _ _ _ H E). intros p q l l' m O A X. rewrite <- LM in O. refine (twin_heun _ _ _ _ _ _ _ _ _ _ _ _ _ V RW RP _ _ O A X); congruence. }
    exists b'. split; [exact E'|]. apply heun_sound in E'. destruct E' as (ws2 & ps2 & _ & _ & E').
    apply G2; [refine (stepwise_weaken _ _ _ _ _ E)|refine (stepwise_weaken _ _ _ _ _ E')|exact EM]; intros p l l' (w & x & c & _ & _ & _ & _ & _ & X); exists c; exact X.
  - apply eh_sound in E. destruct (eh_complete t dt b (image a' b)) as (b' & E' & EM).
    { apply (image_stepwise _ _ _ _ _ H E). intros p q l l' m O A X. rewrite <- LM in O. exact (twin_eh _ _ _ _ _ _ _ _ _ V O A X). }
    exists b'. split; [exact E'|]. apply eh_sound in E'.
    apply G2; [refine (stepwise_weaken _ _ _ _ _ E)|refine (stepwise_weaken _ _ _ _ _ E')|exact EM]; intros p l l' (w & c & _ & _ & X); exists c; exact X.
Qed.
