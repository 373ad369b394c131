(** Where the stubs and the bindings part, vectors as sequences, names of the module. *)
From Verif Require Export P_BindTable.
From Coq Require Export Permutation.
Open Scope nat_scope.
Local Open Scope string_scope.

Lemma loads_mono t v : Loads false t v -> Loads true t v.
Proof. induction 1; try discriminate; constructor; auto. Qed.
Lemma takes_mono o pos kw args : Takes false o pos kw args -> Takes true o pos kw args.
Proof. intros (A & B0 & C & E & F & G). repeat split; auto. intros i p v Hp Hv. apply loads_mono. eauto. Qed.
Lemma takes_unique c o pos kw a b : Distinct o -> NoDup (map fst kw) -> Takes c o pos kw a -> Takes c o pos kw b -> a = b.
Proof. intros D0 N A B0. apply (takes_spec c o pos kw a D0 N) in A. apply (takes_spec c o pos kw b D0 N) in B0. destruct A, B0. congruence. Qed.
(** An overload that takes the call when no other one does. *)
Lemma dispatch_only os o pos kw args : Forall Distinct os -> NoDup (map fst kw) -> In o os -> Takes true o pos kw args ->
  (forall o' a, In o' os -> o' <> o -> ~ Takes true o' pos kw a) -> dispatch os pos kw = Called (o_target o) args.
Proof.
  intros F N I T Oth. destruct (dispatch os pos kw) as [t a|] eqn:E.
  - apply (dispatch_called os pos kw t a F N) in E.
    assert (S1 : exists o', In o' os /\ Takes true o' pos kw a /\ t = o_target o').
    { destruct E as [(_ & b & o' & r & -> & _ & Tk & Et)|(_ & b & o' & r & -> & _ & Tk & Et)]; exists o'; (split; [apply in_or_app; right; now left|]); split; auto. now apply takes_mono. }
    destruct S1 as (o' & I' & T' & Et). destruct (Coq.Logic.Classical_Prop.classic (o' = o)) as [->|Ne]; [|exfalso; eapply Oth; eauto].
    subst t. f_equal. eapply takes_unique; eauto. rewrite Forall_forall in F. auto.
  - exfalso. apply (dispatch_refused os pos kw F N) in E. destruct E as (_ & E). eapply E; eauto.
Qed.
(** Overloads that cannot take a call permitted by a signature: one that has no room for a parameter the call
    passes, and one that lacks a parameter. *)
Lemma no_room c o sig pos kw args i v k t n : Given sig pos kw i v -> nth_error sig i = Some (k, t, n) -> length (params o) <= i -> known (params o) k = false -> ~ Takes c o pos kw args.
Proof.
  intros G E L K (_ & T2 & T3 & _). destruct G as [G|(_ & k' & t' & n' & E' & I)].
  - assert (i < length pos) by (apply nth_error_Some; congruence). lia.
  - rewrite E in E'; inversion E'; subst. destruct (T3 k' v I) as (j & p & _ & Hp & Hk).
    assert (known (params o) k' = true) by (apply known_spec; eauto). congruence.
Qed.
Lemma lacking c o sig pos kw args j p k : Permitted sig pos kw -> nth_error (params o) j = Some p -> p_kw p = Some k -> p_def p = None -> length sig <= j ->
  (forall i t n, nth_error sig i <> Some (k, t, n)) -> ~ Takes c o pos kw args.
Proof.
  intros (P1 & _ & P3 & _) Hp Hk Hd L Nk (_ & _ & _ & _ & T5 & _). destruct (T5 j p ltac:(lia) Hp) as (v & _ & [(k' & K1 & K2)|(K1 & _)]); [|congruence].
  rewrite Hk in K1; inversion K1; subst k'. destruct (P3 k v K2) as (i & t & n & _ & E). now apply Nk in E.
Qed.

(** ** Junction *)
Definition J1 : ov := Ov "Junction(layers)" [("layersToSet", TVector La)] [req "layers"].
Definition J2 : ov := Ov "Junction(layers, Rp, Rap)" [("layersToSet", TVector La); ("Rp", D); ("Rap", D)] [req "layers"; dfl "Rp" (VInt 100); dfl "Rap" (VInt 200)].
Definition J3 : ov := Ov "Junction(strip)" [("layersToSet", TVector La); ("Rx0", TVector D); ("Ry0", TVector D); ("AMR_X", TVector D); ("AMR_Y", TVector D); ("SMR_X", TVector D); ("SMR_Y", TVector D); ("AHE", TVector D)]
        [req "layers"; req "Rx0"; req "Ry0"; req "AMR_X"; req "AMR_Y"; req "SMR_X"; req "SMR_Y"; req "AHE"].
Lemma junction_bound : bound "Junction" bindings = [J1; J2; J3].
Proof. reflexivity. Qed.
Lemma junction_distinct : Forall Distinct [J1; J2; J3].
Proof. rewrite <- junction_bound. apply bound_distinct. Qed.

Ltac no_key := let i := fresh in intros i ? ?; do 3 (destruct i as [|i]; [cbn; discriminate|]); destruct i; cbn; discriminate.
Lemma junction_strip sig : sig = [rq "layers" (TVector La); rq "Rx0" (TVector D); rq "Ry0" (TVector D); rq "AMR_X" (TVector D); rq "AMR_Y" (TVector D); rq "SMR_X" (TVector D); rq "SMR_Y" (TVector D); rq "AHE" (TVector D)] ->
  Serves "Junction" "Junction(strip)" sig.
Proof.
  intros -> pos kw P. unfold call. rewrite junction_bound.
  assert (G : exists v, Given [rq "layers" (TVector La); rq "Rx0" (TVector D); rq "Ry0" (TVector D); rq "AMR_X" (TVector D); rq "AMR_Y" (TVector D); rq "SMR_X" (TVector D); rq "SMR_Y" (TVector D); rq "AHE" (TVector D)] pos kw 7 v).
  { destruct P as (_ & _ & _ & P4 & _). eapply P4. reflexivity. }
  destruct G as (v & G).
  edestruct (matching_takes J3) as (args & T & L & GA & DF); [| | |exact P|].
  - pose proof junction_distinct as F. inversion F as [|? ? ? F1]; inversion F1 as [|? ? ? F2]; now inversion F2.
  - unfold J3. matches.
  - right. unfold J3. matches.
  - exists args. repeat split; auto. apply (dispatch_only _ J3); auto using junction_distinct.
    + apply P.
    + cbn; auto.
    + intros o' a [<-|[<-|[<-|[]]]] Ne; [| |congruence]; eapply no_room; eauto; try reflexivity; cbn; lia.
Qed.
Lemma junction_resistive sig : (sig = [rq "layers" (TVector La); rq "Rp" D; df "Rap" D (VInt 200)] \/ sig = [rq "layers" (TVector La); df "Rp" D (VInt 100); rq "Rap" D]) ->
  Serves "Junction" "Junction(layers, Rp, Rap)" sig.
Proof.
  intros Es pos kw P. unfold call. rewrite junction_bound.
  assert (M : Forall2 Matches sig (params J2)) by (destruct Es as [->| ->]; unfold J2; matches).
  assert (Nm : Forall2 Named sig (params J2)) by (destruct Es as [->| ->]; unfold J2; matches).
  edestruct (matching_takes J2) as (args & T & L & GA & DF); [|exact M|right; exact Nm|exact P|].
  - pose proof junction_distinct as F. inversion F as [|? ? ? F1]; inversion F1 as [|? ? ? F2]; now inversion F2.
  - exists args. repeat split; auto. apply (dispatch_only _ J2); auto using junction_distinct.
    + apply P.
    + cbn; auto.
    + intros o' a [<-|[<-|[<-|[]]]] Ne; [|congruence|].
      * destruct Es as [->| ->].
        -- assert (G : exists v, Given [rq "layers" (TVector La); rq "Rp" D; df "Rap" D (VInt 200)] pos kw 1 v) by (destruct P as (_ & _ & _ & P4 & _); eapply P4; reflexivity).
           destruct G as (v & G). eapply no_room; eauto; try reflexivity; cbn; lia.
        -- assert (G : exists v, Given [rq "layers" (TVector La); df "Rp" D (VInt 100); rq "Rap" D] pos kw 2 v) by (destruct P as (_ & _ & _ & P4 & _); eapply P4; reflexivity).
           destruct G as (v & G). eapply no_room; eauto; try reflexivity; cbn; lia.
      * eapply (lacking _ J3 sig) with (j := 7); try reflexivity; auto; destruct Es as [->| ->]; first [cbn; lia|no_key].
Qed.
Lemma junction_plain v pos kw : Typed (TVector La) v -> (pos = [v] /\ kw = []) \/ (pos = [] /\ kw = [("layers", v)]) ->
  call "Junction" pos kw = Called "Junction(layers)" [v].
Proof.
  intros T C. destruct v; try contradiction. unfold call. rewrite junction_bound, dispatch_many by (cbn; lia).
  assert (A : forallb (load false La) vs = true).
  { apply forallb_forall. intros w I. cbn in T. rewrite Forall_forall in T. specialize (T w I). destruct w; try contradiction. cbn in T. subst. reflexivity. }
  assert (E : attempt false [J1; J2; J3] pos kw = Called "Junction(layers)" [VList vs]).
  { destruct C as [(-> & ->)|(-> & ->)]; cbn -[load]; rewrite load_list, A; reflexivity. }
  now rewrite E.
Qed.
Lemma junction_serves_plain : Serves "Junction" "Junction(layers)" [rq "layers" (TVector La)].
Proof. intros pos kw P. destruct (permitted_single _ _ _ _ P) as (v & T & C). rewrite (junction_plain v pos kw T C). now apply honoured_single. Qed.

Lemma strange_keywords name k : In (name, k) strange -> forall pos kw v, In (k, v) kw -> call name pos kw = TypeError.
Proof.
  intros I pos kw v Ik. unfold call. apply (unknown_keyword _ _ _ k v Ik).
  assert (A : forallb (fun '(n, k) => forallb (fun o => negb (known (params o) k)) (bound n bindings)) strange = true) by (vm_compute; reflexivity).
  rewrite forallb_forall in A. specialize (A _ I). change (forallb (fun o => negb (known (params o) k)) (bound name bindings) = true) in A. rewrite forallb_forall in A. intros o Io. apply Bool.negb_true_iff. auto.
Qed.

Lemma real_all : Forall (fun '(name, target, sig) => Serves name target sig) real_signatures.
Proof. unfold real_signatures. cbn [app]. repeat apply Forall_cons; try apply Forall_nil; serves. Qed.

Lemma honoured_other target sig sig' pos kw out : Honoured target sig pos kw out -> Honoured target sig' pos kw out -> forall i k t d k' t' d',
  nth_error sig i = Some (k, t, Default d) -> nth_error sig' i = Some (k', t', Default d') -> (forall v, ~ Given sig pos kw i v) -> (forall v, ~ Given sig' pos kw i v) ->
  exists w, SameValue d w /\ SameValue d' w.
Proof.
  intros (a & E & _ & _ & Df) (a' & E' & _ & _ & Df') i k t d k' t' d' H H' N N'. rewrite E in E'. inversion E'; subst a'.
  destruct (Df i k t d H N) as (w & W1 & W2). destruct (Df' i k' t' d' H' N') as (w' & W3 & W4). assert (w' = w) by congruence. subst w'. eauto.
Qed.
(** Two signatures of the same names, types and necessity permit the same calls and give the same meaning to them. *)
Definition shape (s : string * ty * need) : string * ty * bool := let '(k, t, n) := s in (k, t, match n with Required => true | _ => false end).
Lemma shape_at sig sig' : map shape sig = map shape sig' -> forall i k t n, nth_error sig i = Some (k, t, n) -> exists n', nth_error sig' i = Some (k, t, n') /\ (n' = Required <-> n = Required).
Proof.
  intros E i k t n H. assert (H1 : nth_error (map shape sig) i = Some (shape (k, t, n))) by now apply map_nth_error.
  rewrite E in H1. rewrite nth_error_map in H1. destruct (nth_error sig' i) as [[[k' t'] n']|]; [|discriminate]. cbn in H1. inversion H1; subst.
  exists n'. split; auto. destruct n, n'; try discriminate; split; congruence.
Qed.
Lemma shape_given sig sig' pos kw i v : map shape sig = map shape sig' -> Given sig pos kw i v -> Given sig' pos kw i v.
Proof. intros E [G|(Hi & k & t & n & H & I)]; [now left|]. right. split; auto. destruct (shape_at _ _ E i k t n H) as (n' & H' & _). exists k, t, n'. auto. Qed.
Lemma shape_permitted sig sig' pos kw : map shape sig = map shape sig' -> Permitted sig pos kw -> Permitted sig' pos kw.
Proof.
  intros E (P1 & P2 & P3 & P4 & P5). assert (L : length sig = length sig') by (rewrite <- (map_length shape sig), E; apply map_length).
  repeat split; auto; try lia.
  - intros k v I. destruct (P3 k v I) as (i & t & n & Hi & H). destruct (shape_at _ _ E i k t n H) as (n' & H' & _). exists i, t, n'. auto.
  - intros i k t H. destruct (shape_at _ _ (eq_sym E) i k t Required H) as (n' & H' & En). rewrite (proj2 En eq_refl) in H'.
    destruct (P4 i k t H') as (v & G). exists v. eapply shape_given; eauto.
  - intros i v k t n G H. destruct (shape_at _ _ (eq_sym E) i k t n H) as (n' & H' & _). eapply P5; [eapply shape_given; [exact (eq_sym E)|exact G]|exact H'].
Qed.
Lemma default_differs name target sig sig' i k t d k' d' : Serves name target sig' -> map shape sig = map shape sig' ->
  nth_error sig i = Some (k, t, Default d) -> nth_error sig' i = Some (k', t, Default d') -> (forall w, SameValue d w -> SameValue d' w -> False) ->
  forall pos kw, Permitted sig pos kw -> (forall v, ~ Given sig pos kw i v) -> ~ Honoured target sig pos kw (call name pos kw).
Proof.
  intros Sv E H H' Ne pos kw P NG Hn. pose proof (Sv pos kw (shape_permitted _ _ _ _ E P)) as Hn'.
  destruct (honoured_other _ _ _ _ _ _ Hn Hn' i k t d k' t d' H H' NG) as (w & W1 & W2); [|eauto].
  intros v G. apply (NG v). eapply shape_given; [exact (eq_sym E)|exact G].
Qed.
Lemma same_float a w : SameValue (fl a) w -> w = fl a.
Proof. intros [<-|(z & E & _)]; [reflexivity|discriminate]. Qed.

(** Any signature the parameters of [Layer] and [runSimulation] are called with by position. *)
Lemma positional_call name o pos : bound name bindings = [o] -> length pos <= length (params o) ->
  (forall i p, length pos <= i -> nth_error (params o) i = Some p -> exists d, p_def p = Some d /\ load true (p_ty p) d = true) ->
  (forall i p v, nth_error (params o) i = Some p -> nth_error pos i = Some v -> Typed (p_ty p) v) ->
  exists args, call name pos [] = Called (o_target o) args /\ length args = length (params o) /\ (forall i v, nth_error pos i = Some v -> nth_error args i = Some v) /\
    (forall i p, length pos <= i -> nth_error (params o) i = Some p -> nth_error args i = p_def p).
Proof.
  intros E L Dd T. unfold call. rewrite E. destruct (fill_total [] (params o) pos L) as (args & Ef).
  - intros; reflexivity.
  - intros i p Hi Hp. left. destruct (Dd i p Hi Hp) as (d & -> & _). discriminate.
  - pose proof (proj1 (fill_spec [] (params o) pos args) Ef) as (F1 & F2 & F3 & F4 & F5).
    assert (DA : forall i p, length pos <= i -> nth_error (params o) i = Some p -> nth_error args i = p_def p).
    { intros i p Hi Hp. destruct (F5 i p Hi Hp) as (w & E1 & [(k & _ & K)|(K & _)]); [discriminate|congruence]. }
    exists args. repeat split; auto.
    unfold dispatch, attempt, bind_call. rewrite Ef. cbn [forallb].
    replace (load_all true (params o) args) with true; auto. symmetry. apply load_all_spec; auto. intros i p v Hp Hv.
    destruct (le_lt_dec (length pos) i) as [Hi|Hi].
    + destruct (Dd i p Hi Hp) as (d & Ed & Ld). rewrite (DA i p Hi Hp) in Hv. congruence.
    + destruct (nth_error pos i) as [w|] eqn:Ew; [|apply nth_error_None in Ew; lia]. pose proof (F4 i w Ew). assert (w = v) by congruence. subst. apply typed_load. eauto.
Qed.

Lemma too_many os pos kw : (forall o, In o os -> length (params o) < length pos) -> dispatch os pos kw = TypeError.
Proof.
  intros A. assert (T : forall c l, (forall o, In o l -> In o os) -> attempt c l pos kw = TypeError).
  { intros c l. induction l as [|o l IH]; intros S0; cbn [attempt]; auto. unfold bind_call. destruct (fill (params o) pos kw) as [a|] eqn:E.
    - apply fill_spec in E. destruct E as (_ & L & _). specialize (A o (S0 o (or_introl eq_refl))). lia.
    - apply IH. intros o' I. apply S0. now right. }
  unfold dispatch. destruct os as [|o [|o2 os]]; try (apply T; auto). rewrite (T false); auto.
Qed.

Lemma nth_error_same {A} : forall (l r : list A), length l = length r -> (forall i v, nth_error l i = Some v -> nth_error r i = Some v) -> r = l.
Proof.
  induction l as [|x l IH]; intros [|y r] L A0; cbn in L; try discriminate; auto. pose proof (A0 0 x eq_refl) as E. cbn in E; inversion E; subst.
  f_equal. apply IH; [lia|]. intros i v H. apply (A0 (S i) v H).
Qed.
Lemma nth_error_beyond {A} (l : list A) i x : nth_error l i = Some x -> ~ length l <= i.
Proof. intros E H. apply nth_error_None in H. congruence. Qed.
Lemma layer_eighth pos : DocTyped (firstn 8 layer_documented) pos -> call "Layer" pos [] = Called "Layer" pos.
Proof.
  intros T. assert (L : length pos = 8) by (symmetry; apply (Forall2_len _ _ _ T)).
  destruct (positional_call "Layer" (Ov "Layer" layer_sig (layer_kws (dfl "damping" (fl 0.011)))) pos) as (args & E & La0 & A & _).
  - reflexivity.
  - rewrite L. cbn. lia.
  - intros i p Hi Hp. exfalso. apply (nth_error_beyond _ _ _ Hp). cbn. lia.
  - intros i p v Hp Hv. destruct (Forall2_at_r _ _ _ T i v Hv) as ([[k t] n] & Hs & Ty).
    do 8 (destruct i as [|i]; [cbn in Hp, Hs; inversion Hp; inversion Hs; subst; exact Ty|]). destruct i; discriminate.
  - rewrite E. f_equal. apply nth_error_same; [rewrite L, La0; reflexivity|exact A].
Qed.
Lemma run_fifth pos : DocTyped (firstn 5 run_documented) pos -> call "Junction.runSimulation" pos [] = Called "Junction::runSimulation" (pos ++ [mode_RK4])%list.
Proof.
  intros T. assert (L : length pos = 5) by (symmetry; apply (Forall2_len _ _ _ T)).
  destruct (positional_call "Junction.runSimulation" (Ov "Junction::runSimulation" (run_sig ++ [("log", B); ("calculateEnergies", B); ("mode", TObj KSolverMode)])
       (run_kws ++ [dfl "log" (VBool false); dfl "calculateEnergies" (VBool false); dfl "solverMode" mode_RK4])) pos) as (args & E & La0 & A & Df).
  - reflexivity.
  - rewrite L. cbn. lia.
  - intros i p Hi Hp. rewrite L in Hi. do 5 (destruct i as [|i]; [lia|]). destruct i as [|i]; [|destruct i; discriminate]. cbn in Hp. inversion Hp; subst. eexists; split; reflexivity.
  - intros i p v Hp Hv. destruct (Forall2_at_r _ _ _ T i v Hv) as ([[k t] n] & Hs & Ty).
    do 5 (destruct i as [|i]; [cbn in Hp, Hs; inversion Hp; inversion Hs; subst; exact Ty|]). destruct i; discriminate.
  - rewrite E. f_equal. apply nth_error_same; [rewrite app_length, L, La0; reflexivity|]. intros i v Hv.
    destruct (Nat.lt_ge_cases i 5) as [Hi|Hi].
    + apply A. rewrite nth_error_app1 in Hv by lia. exact Hv.
    + rewrite nth_error_app2 in Hv by lia. rewrite L in Hv. assert (i = 5) by (destruct (i - 5) eqn:X; [lia|destruct n; discriminate]). subst i. cbn in Hv. inversion Hv; subst.
      rewrite (Df 5 (Pm (Some "solverMode") (TObj KSolverMode) (Some mode_RK4))); [reflexivity|lia|reflexivity].
Qed.
Lemma run_sixth pos : DocTyped run_documented pos -> call "Junction.runSimulation" pos [] = TypeError.
Proof.
  intros T. unfold call. apply dispatch_refused; [apply bound_distinct|constructor|]. split; [left; cbn; lia|].
  intros o args I (_ & _ & _ & T4 & _ & T6). destruct I as [<-|[]].
  assert (H : exists b, nth_error pos 5 = Some (VBool b)).
  { destruct (Forall2_at _ _ _ T 5 _ eq_refl) as (v & Hv & Ty). destruct v; try contradiction. exists b. exact Hv. }
  destruct H as (b & H). pose proof (T4 5 _ H) as H2. specialize (T6 5 (Pm (Some "solverMode") (TObj KSolverMode) (Some mode_RK4)) (VBool b) eq_refl H2). cbn in T6. inversion T6.
Qed.
Lemma sine_amplitude pos kw : Permitted [rq "constantValue" D; rq "amplitude" SDr; rq "frequency" D; rq "phase" D] pos kw -> call "ScalarDriver.getSineDriver" pos kw = TypeError.
Proof.
  intros (P1 & P2 & P3 & P4 & P5). unfold call. apply dispatch_refused; [apply bound_distinct|auto|]. split; [left; cbn; lia|].
  intros o args I (_ & _ & _ & T4 & T5 & T6). destruct I as [<-|[]].
  destruct (P4 1 _ _ eq_refl) as (v & G). pose proof (P5 1 v _ _ _ G eq_refl) as Ty. destruct v; try contradiction.
  assert (H : nth_error args 1 = Some (VObj c i)).
  { destruct G as [G|(Hi & k & t & n & E & Ik)]; [auto|]. cbn in E; inversion E; subst. destruct (T5 1 (Pm (Some "amplitude") D None) Hi eq_refl) as (w & Hw & [(k' & K1 & K2)|(K1 & _)]); [|discriminate].
    cbn in K1; inversion K1; subst. rewrite Hw. f_equal. eapply (proj1 (kw_get_in _ _ _ P2)) in K2 || idtac.
    apply (kw_get_in _ _ _ P2) in K2. apply (kw_get_in _ _ _ P2) in Ik. congruence. }
  specialize (T6 1 (Pm (Some "amplitude") D None) _ eq_refl H). cbn in T6. inversion T6.
Qed.
Lemma vector_axial i pos kw : dispatch getVectorAxialDriver_binding (VObj KAxialDriver i :: pos) kw = TypeError.
Proof.
  unfold dispatch, getVectorAxialDriver_binding, attempt.
  match goal with |- match ?b with _ => _ end = _ => destruct b as [vs|] eqn:E; auto end.
  unfold bind_call in E. match type of E with match ?f with _ => _ end = _ => destruct f as [a|] eqn:Ef; [|discriminate] end.
  destruct (forallb _ kw); [|discriminate]. inversion E; subst. apply fill_spec in Ef. destruct Ef as (_ & _ & _ & F4 & _).
  pose proof (F4 0 _ eq_refl) as H. destruct vs as [|v vs]; [discriminate|]. cbn in H; inversion H; subst. reflexivity.
Qed.

(** ** The order of keywords *)
Lemma takes_permuted c o pos kw kw' args : (forall x, In x kw <-> In x kw') -> Takes c o pos kw args -> Takes c o pos kw' args.
Proof.
  intros P (A & B0 & C & E & F & G). repeat split; auto.
  - intros k v I. apply (C k v). now apply P.
  - intros i p Hi Hp. destruct (F i p Hi Hp) as (v & Hv & [(k & K1 & K2)|(K1 & K2)]); exists v; split; auto.
    + left. exists k. split; auto. now apply P.
    + right. split; auto. intros k w Hk I. apply (K2 k w Hk). now apply P.
Qed.
Lemma refuses_permuted c os pos kw kw' : (forall x, In x kw <-> In x kw') -> Refuses c os pos kw -> Refuses c os pos kw'.
Proof. intros P A o a I T. apply (A o a I). eapply takes_permuted; [|exact T]. intros x. symmetry. apply P. Qed.
Lemma first_permuted c os pos kw kw' t a : (forall x, In x kw <-> In x kw') -> First c os pos kw t a -> First c os pos kw' t a.
Proof.
  intros P (b & o & r & E & Rf & T & Et). exists b, o, r. split; [exact E|split; [eapply refuses_permuted; eauto|split; [eapply takes_permuted; eauto|exact Et]]].
Qed.
Lemma call_permuted name pos kw kw' : Permutation kw kw' -> NoDup (map fst kw) -> call name pos kw = call name pos kw'.
Proof.
  intros Pm0 N. assert (P : forall x, In x kw <-> In x kw') by (intros x; split; apply Permutation_in; [|symmetry]; auto).
  assert (N' : NoDup (map fst kw')) by (eapply Permutation_NoDup; [apply Permutation_map; exact Pm0|exact N]).
  unfold call. pose proof (bound_distinct name) as F. destruct (dispatch (bound name bindings) pos kw) as [t a|] eqn:E; symmetry.
  - apply (dispatch_called _ pos kw t a F N) in E. apply (dispatch_called _ pos kw' t a F N').
    destruct E as [(L & E)|(L & E)]; [left; split; auto; eapply first_permuted; eauto|right; split; [destruct L as [L|L]; [auto|right; eapply refuses_permuted; eauto]|eapply first_permuted; eauto]].
  - apply (dispatch_refused _ pos kw F N) in E. apply (dispatch_refused _ pos kw' F N'). destruct E as (L & E).
    split; [destruct L as [L|L]; [auto|right; eapply refuses_permuted; eauto]|eapply refuses_permuted; eauto].
Qed.

(** ** The tables *)
Lemma table_names : forall name os o, In (name, os) bindings -> In o os -> (o_kws o = [] \/ length (o_kws o) = length (o_sig o)) /\
  forall i k d n t, nth_error (o_kws o) i = Some (k, d) -> nth_error (o_sig o) i = Some (n, t) -> k = n \/ In (name, k, n) renamed.
Proof.
  assert (T : forallb (fun '(n, os) => forallb (fun o => (match o_kws o with [] => true | _ => Nat.eqb (length (o_kws o)) (length (o_sig o)) end) &&
     forallb (fun '((k, _), (c, _)) => String.eqb k c || existsb (fun '(a, b, e) => String.eqb n a && String.eqb k b && String.eqb c e) renamed) (combine (o_kws o) (o_sig o))) os) bindings = true) by (vm_compute; reflexivity).
  intros name os o I Io. rewrite forallb_forall in T. specialize (T _ I). cbv beta iota in T. rewrite forallb_forall in T. specialize (T _ Io).
  apply Bool.andb_true_iff in T. destruct T as (T1 & T2). split.
  - destruct (o_kws o); [now left|right]. now apply Nat.eqb_eq.
  - intros i k d n t Hk Hn. rewrite forallb_forall in T2.
    assert (Ic : In ((k, d), (n, t)) (combine (o_kws o) (o_sig o))).
    { clear T1 T2 Io. revert i Hk Hn. generalize (o_sig o). induction (o_kws o) as [|x l IH]; intros sg i Hk Hn; [destruct i; discriminate|].
      destruct sg as [|y sg]; [destruct i; discriminate|]. destruct i; cbn in Hk, Hn |- *; [inversion Hk; inversion Hn; now left|right; eauto]. }
    specialize (T2 _ Ic). cbv beta iota in T2. apply Bool.orb_true_iff in T2. destruct T2 as [T2|T2]; [left; now apply String.eqb_eq|right].
    apply existsb_exists in T2. destruct T2 as ([[a b] e] & Ix & Ex). apply Bool.andb_true_iff in Ex. destruct Ex as (Ex & E3). apply Bool.andb_true_iff in Ex. destruct Ex as (E1 & E2).
    apply String.eqb_eq in E1, E2, E3. now subst.
Qed.
Lemma incl_b l r : forallb (fun x => existsb (String.eqb x) r) l = true -> forall x, In x l -> In x r.
Proof. intros T x I. rewrite forallb_forall in T. specialize (T x I). apply existsb_exists in T. destruct T as (y & Iy & E). apply String.eqb_eq in E. now subst. Qed.
Lemma stubs_sorted : (forall name, In name (map fst stubs) <-> In name (faithful_names ++ positional_names ++ departing_names)) /\ NoDup (faithful_names ++ positional_names ++ departing_names) /\ NoDup (map fst stubs).
Proof.
  split; [|split; apply nodupb_sound; vm_compute; reflexivity].
  intros name. split; apply incl_b; vm_compute; reflexivity.
Qed.
Lemma bound_sorted : (forall name, In name (map fst bindings) <-> In name (map fst stubs ++ undocumented_names)) /\ NoDup (map fst stubs ++ undocumented_names) /\ NoDup (map fst bindings).
Proof.
  split; [|split; apply nodupb_sound; vm_compute; reflexivity].
  intros name. split; apply incl_b; vm_compute; reflexivity.
Qed.
