(** Dipole tensors and dipole fields. *)
From Verif Require Export S_Reservoir P_StackProps.
Open Scope R_scope.
Open Scope st_scope.

Lemma tensor_ext t u : (forall m, MatVec t m = MatVec u m) -> t = u.
Proof.
  intros H. pose proof (H (CV 1 0 0)) as A. pose proof (H (CV 0 1 0)) as B. pose proof (H (CV 0 0 1)) as C. clear H.
  destruct t as [[a b c] [d e f] [g h i]], u as [[a' b' c'] [d' e' f'] [g' h' i']]. unfold MatVec in *. vsimp.
  injection A as A1 A2 A3. injection B as B1 B2 B3. injection C as C1 C2 C3.
  f_equal; apply vec_eq; lra.
Qed.
Lemma four_pi_pos : 0 < 4 * PI.
Proof. pose proof PI_RGT_0. lra. Qed.
(** The tensor of the formula, with the length given. *)
Definition dten (r : cvec) (n : R) : tensor :=
  let k := 3 / (4 * PI * n ^ 5) in
  Ten (Scal k (CV (cx r ^ 2 - n ^ 2 / 3) (cx r * cy r) (cx r * cz r)))
      (Scal k (CV (cx r * cy r) (cy r ^ 2 - n ^ 2 / 3) (cy r * cz r)))
      (Scal k (CV (cx r * cz r) (cy r * cz r) (cz r ^ 2 - n ^ 2 / 3))).
Lemma dten_field r n m : n <> 0 ->
  MatVec (dten r n) m = Scal (/ (4 * PI)) (Minus (Scal (3 * Dot m r / n ^ 5) r) (Scal (/ n ^ 3) m)).
Proof.
  intros Hn. pose proof four_pi_pos as Hp. destruct r as [x y z], m as [a b c]. unfold dten, MatVec. vsimp.
  revert Hp. generalize (4 * PI). intros p Hp. apply vec_eq; field; split; lra.
Qed.
Lemma norm_nz r : r <> Zero -> Norm r <> 0.
Proof. intros H X. apply H, Norm_zero_iff, X. Qed.
Lemma dten_map r : r <> Zero -> dipole_map r (dten r (Norm r)).
Proof. intros H. split; [exact H|]. intros m. apply dten_field, norm_nz, H. Qed.
Lemma dipole_tensor_eq r : r <> Zero -> dipole_tensor r = Ok (dten r (Norm r)).
Proof.
  intros H. unfold dipole_tensor. rewrite vlength_Norm. assert (N := norm_nz r H). pose proof four_pi_pos as Hp.
  rewrite fdiv_ok by (apply Rmult_integral_contrapositive_currified; [lra|apply pow_nonzero, N]).
  cbn [rbind]. rewrite !vscale_Scal. reflexivity.
Qed.
Lemma dipole_tensor_iff r t : dipole_tensor r = Ok t <-> dipole_map r t.
Proof.
  destruct (zero_dec r) as [->|H].
  - split; [|intros [X _]; contradiction]. unfold dipole_tensor, fdiv. destruct (Req_EM_T _ 0) as [E|E]; [discriminate|].
    exfalso. apply E. rewrite vlength_Norm, (proj2 (Norm_zero_iff Zero) eq_refl). ring.
  - rewrite (dipole_tensor_eq r H). split.
    + intros E. injection E as <-. apply dten_map, H.
    + intros [_ HM]. f_equal. apply tensor_ext. intros m. rewrite HM. apply (dten_map r H).
Qed.
Lemma dipole_map_det r t u : dipole_map r t -> dipole_map r u -> t = u.
Proof. intros [_ A] [_ B]. apply tensor_ext. intros m. rewrite A, B. reflexivity. Qed.
Lemma close_pos : 0 < closeness.
Proof. unfold closeness. lra. Qed.
Lemma tensor_iff r1 r2 t : getDipoleTensorFromRelPositions r1 r2 = Ok t <->
  closeness <= Norm (Minus r1 r2) /\ dipole_map (Minus r1 r2) t.
Proof.
  unfold getDipoleTensorFromRelPositions. rewrite vlength_Norm, vsub_Minus. fold closeness. destruct (Rlt_dec _ _) as [H|H].
  - split; [discriminate|]. intros [X _]. lra.
  - rewrite dipole_tensor_iff. split; [intros X; split; [lra|exact X]|intros [_ X]; exact X].
Qed.
Lemma far_nonzero r : closeness <= Norm r -> r <> Zero.
Proof. intros H E. apply Norm_zero_iff in E. pose proof close_pos. lra. Qed.
Lemma tensor_accepts r1 r2 : closeness <= Norm (Minus r1 r2) -> exists t, getDipoleTensorFromRelPositions r1 r2 = Ok t.
Proof. intros H. eexists. apply tensor_iff. split; [exact H|]. apply dten_map, far_nonzero, H. Qed.
Lemma tensor_refuses r1 r2 : Norm (Minus r1 r2) < closeness -> exists msg, getDipoleTensorFromRelPositions r1 r2 = Err (Throw msg).
Proof.
  intros H. unfold getDipoleTensorFromRelPositions. rewrite vlength_Norm, vsub_Minus. fold closeness.
  destruct (Rlt_dec _ _) as [_|X]; [eauto|contradiction].
Qed.
Lemma map_entries r t : dipole_map r t -> t = dten r (Norm r).
Proof. intros H. apply (dipole_map_det r); [exact H|]. apply dten_map, H. Qed.
Lemma map_symmetric r t : dipole_map r t -> forall a b, Dot (MatVec t a) b = Dot a (MatVec t b).
Proof.
  intros [_ H] a b. rewrite !H. unfold DipoleField. generalize (/ (4 * PI)) (/ Norm r ^ 3) (Norm r ^ 5). intros p q s.
  destruct r, a, b. unfold Rdiv. vsimp. ring.
Qed.
Lemma map_entries_symmetric r t : dipole_map r t ->
  cy (row0 t) = cx (row1 t) /\ cz (row0 t) = cx (row2 t) /\ cz (row1 t) = cy (row2 t).
Proof. intros H. rewrite (map_entries r t H). unfold dten. cbn. auto. Qed.
Lemma map_traceless r t : dipole_map r t -> cx (row0 t) + cy (row1 t) + cz (row2 t) = 0.
Proof.
  intros H. rewrite (map_entries r t H). unfold dten. generalize (3 / (4 * PI * Norm r ^ 5)). intros k.
  assert (E := Norm_sqr r). revert E. generalize (Norm r). intros n E. destruct r as [x y z]. vsimp.
  transitivity (k * (x * x + y * y + z * z - n * n)); [field|rewrite E; ring].
Qed.
Lemma Norm_opp r : Norm (Scal (-1) r) = Norm r.
Proof. unfold Norm. rewrite Norm2_Scal. f_equal. ring. Qed.
Lemma map_opp r t : dipole_map r t -> dipole_map (Scal (-1) r) t.
Proof.
  intros [N H]. split.
  - intros X. apply N. destruct r. vsimp. injection X as A B C. apply vec_eq; lra.
  - intros m. rewrite H. unfold DipoleField. rewrite Norm_opp. generalize (/ (4 * PI)) (/ Norm r ^ 3) (Norm r ^ 5).
    intros p q s. unfold Rdiv. destruct r, m. vsimp. apply vec_eq; ring.
Qed.
Lemma minus_swap a b : Minus b a = Scal (-1) (Minus a b).
Proof. vring. Qed.
Lemma tensor_swap r1 r2 : getDipoleTensorFromRelPositions r2 r1 = getDipoleTensorFromRelPositions r1 r2.
Proof.
  destruct (Rlt_dec (Norm (Minus r1 r2)) closeness) as [H|H].
  - unfold getDipoleTensorFromRelPositions. rewrite !vlength_Norm, !vsub_Minus. fold closeness.
    destruct (Rlt_dec (Norm (Minus r2 r1)) closeness) as [_|X]; [destruct (Rlt_dec (Norm (Minus r1 r2)) closeness); [reflexivity|contradiction]|].
    exfalso. apply X. rewrite minus_swap, Norm_opp. exact H.
  - destruct (tensor_accepts r1 r2 ltac:(lra)) as [t E]. rewrite E. apply tensor_iff. apply tensor_iff in E. destruct E as [A B].
    rewrite minus_swap, Norm_opp. split; [exact A|apply map_opp, B].
Qed.
Lemma Norm_scal k r : 0 < k -> Norm (Scal k r) = k * Norm r.
Proof.
  intros Hk. unfold Norm. rewrite Norm2_Scal, sqrt_mult_alt by nra. f_equal. apply sqrt_square. lra.
Qed.
Lemma map_scale k r t : 0 < k -> dipole_map r t -> dipole_map (Scal k r) (ScaleTensor (/ k ^ 3) t).
Proof.
  intros Hk [N H]. assert (NN := norm_nz r N). split.
  - intros X. apply N. destruct r. vsimp. injection X as A B C. apply vec_eq; nra.
  - intros m. transitivity (Scal (/ k ^ 3) (MatVec t m)).
    + generalize (/ k ^ 3). intros q. destruct t as [[] [] []], m. unfold MatVec, ScaleTensor. vsimp. apply vec_eq; ring.
    + rewrite H. unfold DipoleField. rewrite Norm_scal by exact Hk. revert NN. generalize (Norm r). intros n NN.
      pose proof four_pi_pos as Hp. revert Hp. generalize (4 * PI). intros p Hp. destruct r, m. vsimp.
      apply vec_eq; field; repeat split; lra.
Qed.
Lemma tensor_scale k r1 r2 t : 1 <= k -> getDipoleTensorFromRelPositions r1 r2 = Ok t ->
  getDipoleTensorFromRelPositions (Scal k r1) (Scal k r2) = Ok (ScaleTensor (/ k ^ 3) t).
Proof.
  intros Hk E. apply tensor_iff in E. destruct E as [A B]. apply tensor_iff.
  replace (Minus (Scal k r1) (Scal k r2)) with (Scal k (Minus r1 r2)) by vring. split.
  - rewrite Norm_scal by lra. pose proof (Norm_nonneg (Minus r1 r2)). nra.
  - apply map_scale; [lra|exact B].
Qed.
Lemma tensor_shift r1 r2 d : getDipoleTensorFromRelPositions (Plus r1 d) (Plus r2 d) = getDipoleTensorFromRelPositions r1 r2.
Proof. unfold getDipoleTensorFromRelPositions. replace (vsub (Plus r1 d) (Plus r2 d)) with (vsub r1 r2) by vring. reflexivity. Qed.
(** Along the axis twice the transverse strength, with the opposite sign. *)
Lemma map_axis r t : dipole_map r t -> MatVec t r = Scal (2 / (4 * PI * Norm r ^ 3)) r.
Proof.
  intros [N H]. rewrite H. assert (NN := norm_nz r N). assert (E : Dot r r = Norm r * Norm r) by (rewrite Norm_sqr; reflexivity).
  unfold DipoleField. rewrite E. revert NN. generalize (Norm r). intros n NN. pose proof four_pi_pos as Hp. revert Hp. generalize (4 * PI).
  intros p Hp. clear -NN Hp. destruct r. vsimp. apply vec_eq; field; repeat split; lra.
Qed.
Lemma map_perp r t m : dipole_map r t -> Dot m r = 0 -> MatVec t m = Scal (- / (4 * PI * Norm r ^ 3)) m.
Proof.
  intros [N H] E. rewrite H. assert (NN := norm_nz r N).
  unfold DipoleField. rewrite E. revert NN. generalize (Norm r). intros n NN. pose proof four_pi_pos as Hp. revert Hp. generalize (4 * PI).
  intros p Hp. clear -NN Hp. destruct r, m. vsimp. apply vec_eq; field; repeat split; lra.
Qed.

(** ** The interaction functions *)
Lemma noumra_iff r1 r2 l1 l2 h : computeDipoleInteractionNoumra r1 r2 l1 l2 = Ok h <->
  closeness <= Norm (Minus r1 r2) /\ h = Scal (moment l2) (DipoleField (Minus r1 r2) (l_mag l2)).
Proof.
  unfold computeDipoleInteractionNoumra. split.
  - intros E. destruct (getDipoleTensorFromRelPositions r1 r2) as [t|e] eqn:ET; [|discriminate]. cbn [rbind] in E.
    apply tensor_iff in ET. destruct ET as [A [B C]]. split; [exact A|]. injection E as <-. rewrite tensor_interaction_spec, C.
    unfold moment. f_equal. field. pose proof MU0_pos. lra.
  - intros [A ->]. destruct (tensor_accepts r1 r2 A) as [t ET]. rewrite ET. cbn [rbind]. apply tensor_iff in ET. destruct ET as [_ [_ C]].
    rewrite tensor_interaction_spec, C. do 2 f_equal. unfold moment. field. pose proof MU0_pos. lra.
Qed.
Lemma kanao_iff r1 r2 l1 l2 h : computeDipoleInteraction r1 r2 l1 l2 = Ok h <->
  closeness <= Norm (Minus r1 r2) /\ h = Scal (4 * PI * moment l2) (DipoleField (Minus r1 r2) (l_mag l2)).
Proof.
  unfold computeDipoleInteraction. rewrite vlength_Norm, vsub_Minus. fold closeness. destruct (Rlt_dec _ _) as [H|H].
  - split; [discriminate|]. intros [X _]. lra.
  - assert (F : closeness <= Norm (Minus r1 r2)) by lra. assert (N := norm_nz _ (far_nonzero _ F)).
    rewrite !vdiv_ok by (apply pow_nonzero, N). cbn [rbind]. rewrite c_dot_Dot, !vscale_Scal, vsub_Minus. fold (moment l2).
    match goal with |- Ok ?a = _ <-> _ /\ _ = ?b => assert (E : a = b) end.
    { unfold DipoleField. generalize (Minus r1 r2) (l_mag l2) (moment l2) N. clear. intros r m k N. revert N. generalize (Norm r). intros n N.
      pose proof four_pi_pos as Hp. revert Hp. generalize (4 * PI). intros p Hp. destruct r, m. vsimp. apply vec_eq; field; repeat split; lra. }
    rewrite E. split; [intros X; injection X as <-; auto|intros [_ ->]; reflexivity].
Qed.
Lemma scal_scal a b v : Scal a (Scal b v) = Scal (a * b) v.
Proof. vring. Qed.
Lemma kanao_noumra r1 r2 l1 l2 h : computeDipoleInteraction r1 r2 l1 l2 = Ok h <->
  exists k, computeDipoleInteractionNoumra r1 r2 l1 l2 = Ok k /\ h = Scal (4 * PI) k.
Proof.
  rewrite kanao_iff. split.
  - intros [A ->]. eexists. split; [apply noumra_iff; split; [exact A|reflexivity]|]. rewrite scal_scal. reflexivity.
  - intros (k & E & ->). apply noumra_iff in E. destruct E as [A ->]. split; [exact A|]. rewrite scal_scal. reflexivity.
Qed.
Lemma both_refuse r1 r2 l1 l2 : Norm (Minus r1 r2) < closeness ->
  (exists msg, computeDipoleInteraction r1 r2 l1 l2 = Err (Throw msg)) /\
  (exists msg, computeDipoleInteractionNoumra r1 r2 l1 l2 = Err (Throw msg)).
Proof.
  intros H. split.
  - unfold computeDipoleInteraction. rewrite vlength_Norm, vsub_Minus. fold closeness. destruct (Rlt_dec _ _) as [_|X]; [eauto|contradiction].
  - unfold computeDipoleInteractionNoumra. destruct (tensor_refuses r1 r2 H) as [msg E]. rewrite E. cbn. eauto.
Qed.
(** Reciprocity: the energies of the two moments in each other's fields agree. *)
Lemma field_reciprocal r a b : Dot a (DipoleField r b) = Dot b (DipoleField (Scal (-1) r) a).
Proof.
  unfold DipoleField. rewrite Norm_opp. generalize (/ (4 * PI)) (/ Norm r ^ 3) (Norm r ^ 5). intros p q s. unfold Rdiv.
  destruct r, a, b. vsimp. ring.
Qed.
Lemma reciprocal r1 r2 l1 l2 h12 h21 : computeDipoleInteraction r1 r2 l1 l2 = Ok h12 -> computeDipoleInteraction r2 r1 l2 l1 = Ok h21 ->
  moment l1 * Dot (l_mag l1) h12 = moment l2 * Dot (l_mag l2) h21.
Proof.
  intros A B. apply kanao_iff in A, B. destruct A as [_ ->], B as [_ ->].
  assert (E := field_reciprocal (Minus r1 r2) (l_mag l1) (l_mag l2)). rewrite (minus_swap r1 r2).
  assert (S : forall k a b, Dot a (Scal k b) = k * Dot a b) by (clear; intros; vring). rewrite !S, E. ring.
Qed.
