(** C21: relabelling the axes. *)
From Verif Require Import P_Rot P_RunEx S_Rot.
From Coq Require Import Psatz.
From Coq Require String.
Import String.StringSyntax.
Open Scope R_scope.

(** ** One layer *)
Lemma both_ways {A} (psi : A -> A) (m m1 m2 : ST layer A) : (forall a, psi (psi (psi a)) = a) -> simok in_triples rotateL psi m m1 -> simok in_triples rotateL psi m1 m2 -> simok in_triples rotateL psi m2 m ->
  forall l l' a, in_triples l -> m l = (l', Ok a) <-> m1 (rotateL l) = (rotateL l', Ok (psi a)).
Proof.
  intros T H1 H2 H3 l l' a P. split; intros E; [exact (proj1 (H1 l l' a P E))|]. destruct (H2 (rotateL l) _ _ P E) as [E2 _]. destruct (H3 (rotateL (rotateL l)) _ _ P E2) as [E3 _]. rewrite !layer_thrice, T in E3. exact E3.
Qed.
(** The effective field. *)
Theorem c21_field : forall t dt m b top w l l' h, in_triples l ->
  calculateHeff t dt m b top w l = (l', Ok h) <-> calculateHeff t dt (rotate m) (rotate b) (rotate top) (rotate w) (rotateL l) = (rotateL l', Ok (rotate h)).
Proof.
  intros t dt m b top w. apply (both_ways rotate _ _ (calculateHeff t dt (rotate (rotate m)) (rotate (rotate b)) (rotate (rotate top)) (rotate (rotate w)))); [exact rot_thrice|apply sim_heff|apply sim_heff|].
  rewrite <- (rot_thrice m) at 2. rewrite <- (rot_thrice b) at 2. rewrite <- (rot_thrice top) at 2. rewrite <- (rot_thrice w) at 2. apply sim_heff.
Qed.
(** The torque of a given field, and of the effective field. *)
Theorem c21_torque : forall t m dt b top h l l' d, in_triples l ->
  solveLLG t m dt b top h l = (l', Ok d) <-> solveLLG t (rotate m) dt (rotate b) (rotate top) (rotate h) (rotateL l) = (rotateL l', Ok (rotate d)).
Proof.
  intros t m dt b top h. apply (both_ways rotate _ _ (solveLLG t (rotate (rotate m)) dt (rotate (rotate b)) (rotate (rotate top)) (rotate (rotate h)))); [exact rot_thrice|apply sim_llg|apply sim_llg|].
  rewrite <- (rot_thrice m) at 2. rewrite <- (rot_thrice b) at 2. rewrite <- (rot_thrice top) at 2. rewrite <- (rot_thrice h) at 2. apply sim_llg.
Qed.
Theorem c21_motion : forall t m dt b top l l' d, in_triples l ->
  calculateLLGWithFieldTorque t m b top dt l = (l', Ok d) <-> calculateLLGWithFieldTorque t (rotate m) (rotate b) (rotate top) dt (rotateL l) = (rotateL l', Ok (rotate d)).
Proof.
  intros t m dt b top. apply (both_ways rotate _ _ (calculateLLGWithFieldTorque t (rotate (rotate m)) (rotate (rotate b)) (rotate (rotate top)) dt)); [exact rot_thrice|apply sim_rhs|apply sim_rhs|].
  rewrite <- (rot_thrice m) at 2. rewrite <- (rot_thrice b) at 2. rewrite <- (rot_thrice top) at 2. apply sim_rhs.
Qed.
Theorem c21_dipole_step : forall t dt b top d l l', in_triples l ->
  rk4_stepDipoleInjection t dt b top d l = (l', Ok tt) <-> rk4_stepDipoleInjection t dt (rotate b) (rotate top) (rotate d) (rotateL l) = (rotateL l', Ok tt).
Proof.
  intros t dt b top d l l' P. refine (both_ways (fun u => u) _ _ (rk4_stepDipoleInjection t dt (rotate (rotate b)) (rotate (rotate top)) (rotate (rotate d))) _ _ _ _ l l' tt P); [reflexivity|apply sim_rk4_dip|apply sim_rk4_dip|].
  rewrite <- (rot_thrice b) at 2. rewrite <- (rot_thrice top) at 2. rewrite <- (rot_thrice d) at 2. apply sim_rk4_dip.
Qed.
(** The noise of a layer. *)
Theorem c21_noise : forall t dt l l' w, in_triples l -> drawNoise t dt l = (l', Ok w) <-> drawNoise t dt (rotateL l) = (rotateL l', Ok (rotate w)).
Proof. intros t dt. apply (both_ways rotate _ _ (drawNoise t dt)); [exact rot_thrice|apply sim_noise|apply sim_noise|apply sim_noise]. Qed.
Example c21_layer_ex : in_triples (ex_hot "free") /\ rotate (l_mag (ex_hot "free")) <> l_mag (ex_hot "free").
Proof. split; [reflexivity|]. cbn. unfold rotate. cbn. intros E. injection E. intros. lra. Qed.

(** ** Construction *)
Theorem c21_layer_created : forall rng nsrc id mag anis Ms th cs demag damping fl dl slon beta pol l,
  mkLayer rng nsrc id mag anis Ms th cs demag damping fl dl slon beta pol = Ok l ->
  mkLayer (rotate_stream rng) (fun n k => rotate (nsrc n k)) id (rotate mag) (rotate anis) Ms th cs (rotateT demag) damping fl dl slon beta pol = Ok (rotateL l) /\ in_triples l.
Proof.
  intros. unfold mkLayer in *. rewrite !rot_length. destruct (Req_EM_T (vlength mag) 0); [discriminate|]. destruct (Req_EM_T (vlength anis) 0); [discriminate|]. injection H as <-. split; reflexivity.
Qed.
Example c21_layer_created_ex : exists l, mkLayer (fun _ => 0) (fun _ _ => vnull) "free" (CV 1 2 3) (CV 0 0 1) 1 1 1 null_tensor (1 / 10) 0 0 0 0 0 = Ok l.
Proof.
  unfold mkLayer. rewrite !vlength_Norm. destruct (Req_EM_T (Norm (CV 1 2 3)) 0) as [E|_]; [apply Norm_zero_iff in E; unfold Zero in E; injection E; lra|]. destruct (Req_EM_T (Norm (CV 0 0 1)) 0) as [E|_]; [apply Norm_zero_iff in E; unfold Zero in E; injection E; lra|]. eexists. reflexivity.
Qed.
Theorem c21_plain_created : forall ls j, Junction_plain ls = Ok j -> exists j1, Junction_plain (map rotateL ls) = Ok j1 /\ rotated j j1 /\ axis_free j.
Proof. intros [|l ls] j H; [discriminate|]. injection H as <-. eexists. split; [reflexivity|]. split; [repeat split; intros k; reflexivity|]. split; [discriminate|reflexivity]. Qed.
Example c21_plain_created_ex : exists j, Junction_plain [ex_hot "free"] = Ok j.
Proof. eexists. reflexivity. Qed.
Theorem c21_classic_created : forall ls Rp Rap j, Junction_classic ls Rp Rap = Ok j -> exists j1, Junction_classic (map rotateL ls) Rp Rap = Ok j1 /\ rotated j j1.
Proof.
  intros [|l [|u [|? ?]]] Rp Rap j H; try discriminate; cbn [Junction_classic map] in *.
  - cbn [rotateL l_reference]. rewrite rot_length. destruct (Req_EM_T (vlength (l_reference l)) 0); [discriminate|]. injection H as <-. eexists. split; [reflexivity|]. repeat split; intros k; reflexivity.
  - injection H as <-. eexists. split; [reflexivity|]. repeat split; intros k; reflexivity.
Qed.
Example c21_classic_created_ex : exists j, Junction_classic [ex_hot "free"] 100 200 = Ok j.
Proof. eexists. apply ex_hot_constructed. Qed.
Theorem c21_axial_drivers : forall d a, getUniAxialDriver d (rotate_axis a) = rotateA (getUniAxialDriver d a).
Proof. exact rot_uni. Qed.

(** ** Whole junctions *)
(** A run of the relabelled junction succeeds exactly if the original does, and ends in the relabelled state with the
    relabelled columns. *)
Theorem c21_run : forall T dt wf e mode j j1, Forall in_triples (j_layers j) -> axis_free j -> rotated j j1 ->
  (forall j', runSimulation T dt wf e mode j = (j', Ok tt) -> exists j1', runSimulation T dt wf e mode j1 = (j1', Ok tt) /\ rotated j' j1') /\
  (forall j1', runSimulation T dt wf e mode j1 = (j1', Ok tt) -> exists j', runSimulation T dt wf e mode j = (j', Ok tt) /\ rotated j' j1').
Proof. exact run_both. Qed.
Example c21_run_ex : forall e mode, Forall in_triples (j_layers ex_hot_junction) /\ axis_free ex_hot_junction /\ (exists j1, rotated ex_hot_junction j1) /\ exists j', runSimulation 10 1 2 e mode ex_hot_junction = (j', Ok tt).
Proof. intros e mode. split; [repeat constructor|]. split; [split; [discriminate|reflexivity]|]. split; [eexists; apply rotateJ_rotated|apply ex_hot_runs]. Qed.
(** Any sequence of setter, coupling, clearing and run calls. *)
Theorem c21_calls : forall calls j j1, Forall in_triples (j_layers j) -> axis_free j -> rotated j j1 ->
  (forall j', succeeds calls j j' -> exists j1', succeeds (map rotate_call calls) j1 j1' /\ rotated j' j1') /\
  (forall j1', succeeds (map rotate_call calls) j1 j1' -> exists j', succeeds calls j j' /\ rotated j' j1').
Proof.
  intros calls j j1 P F Q. split.
  - intros j' E. destruct (calls_forward _ _ _ _ P F Q E) as (j1' & E1 & Q1 & _). eauto.
  - intros j1' E. exact (calls_backward _ _ _ _ P F Q E).
Qed.
Example c21_calls_ex : exists j', succeeds [ARun 10 1 2 HEUN; AClear] ex_hot_junction j'.
Proof. destruct (ex_hot_runs false HEUN) as [j' E]. eexists. exists j'. split; [exact E|]. eexists. split; reflexivity. Qed.
(** What callers see: magnetisations and columns. *)
Theorem c21_readings : forall j j1 id, rotated j j1 ->
  (forall m, getLayerMagnetisation j id = Ok m -> getLayerMagnetisation j1 id = Ok (rotate m)) /\
  log_get (id ++ "_my") (j_log j1) = log_get (id ++ "_mx") (j_log j) /\ log_get (id ++ "_mz") (j_log j1) = log_get (id ++ "_my") (j_log j) /\ log_get (id ++ "_mx") (j_log j1) = log_get (id ++ "_mz") (j_log j) /\
  log_get "time" (j_log j1) = log_get "time" (j_log j) /\ log_get "R" (j_log j1) = log_get "R" (j_log j).
Proof.
  intros j j1 id (Q1 & Q2 & _). split.
  - intros m. unfold getLayerMagnetisation, getLayer. rewrite Q1. clear Q1. induction (j_layers j) as [|l ls IH]; cbn [find_layer map]; [discriminate|]. change (l_id (rotateL l)) with (l_id l). destruct (String.eqb (l_id l) id); [|exact IH]. cbn. intros E. injection E as <-. reflexivity.
  - assert (K : forall a b, a <> String.EmptyString -> rotate_key a = b -> log_get (id ++ b) (j_log j1) = log_get (id ++ a) (j_log j)) by (intros a b N <-; rewrite <- key_tail by exact N; apply Q2).
    split; [apply K; [discriminate|reflexivity]|]. split; [apply K; [discriminate|reflexivity]|]. split; [apply K; [discriminate|reflexivity]|]. split; [apply (Q2 "time"%string)|apply (Q2 "R"%string)].
Qed.
Example c21_readings_ex : exists j1, rotated ex_hot_junction j1.
Proof. eexists. apply rotateJ_rotated. Qed.
(** Strips single out axes: their resistance is not relabelled. *)
Theorem c21_strip_refuted : exists j j1, rotated j j1 /\ j_mode j = MR_STRIP /\ (forall x, In x (j_layers j) -> in_triples x) /\
  j_Rx0 j1 = j_Rx0 j /\ j_AMR_X j1 = j_AMR_X j /\ j_SMR_X j1 = j_SMR_X j /\ stripMagnetoResistance j1 <> stripMagnetoResistance j.
Proof.
  set (j := JN MR_STRIP [ex_layer "a" (CV 1 0 0)] 0 0 [100] [50] [10] [0] [5] [0] [0] [] 0 "R"). exists j, (rotateJ j). split; [apply rotateJ_rotated|]. split; [reflexivity|]. split; [intros x [<-|[]]; reflexivity|]. split; [reflexivity|]. split; [reflexivity|]. split; [reflexivity|].
  intros H. unfold stripMagnetoResistance in H. cbn [rotateJ set_j_log set_j_layers j_layers j_Rx0 j_Ry0 j_AMR_X j_AMR_Y j_SMR_X j_SMR_Y j_AHE j map strip_acc ex_layer rotateL l_mag rotate cx cy cz] in H.
  assert (D : forall x y, y <> 0 -> fdiv x y = Ok (x / y)) by (intros x y N; unfold fdiv; destruct (Req_EM_T y 0); [contradiction|reflexivity]).
  rewrite !D in H by lra. cbn [rbind strip_acc fst snd] in H. rewrite !D in H by lra. cbn [rbind] in H. injection H as H _. lra.
Qed.
Print Assumptions c21_field.
Print Assumptions c21_torque.
Print Assumptions c21_motion.
Print Assumptions c21_dipole_step.
Print Assumptions c21_noise.
Print Assumptions c21_layer_created.
Print Assumptions c21_plain_created.
Print Assumptions c21_classic_created.
Print Assumptions c21_axial_drivers.
Print Assumptions c21_run.
Print Assumptions c21_calls.
Print Assumptions c21_readings.
Print Assumptions c21_strip_refuted.
