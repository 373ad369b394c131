(** The bindings of python/cmtj.cpp one by one. *)
From Verif Require Export P_BindDoc.
Open Scope nat_scope.
Local Open Scope string_scope.

Ltac params_list := cbv [params o_kws o_sig map combine app layer_sig layer_kws sig4 kws4 trapezoid_sig trapezoid_kws dipole_sig dipole_kws run_sig run_kws firstn req dfl
  doc4 doc_trapezoid doc_layer doc_dipole doc_run rq op df].
Ltac one_param := first
  [ exact I | reflexivity
  | eexists; split; [reflexivity|split; [reflexivity|first [left; reflexivity | right; eexists; split; reflexivity]]]
  | eexists; split; [reflexivity|reflexivity] ].
Ltac matches := params_list; repeat (apply Forall2_cons; [cbv [Matches Named p_ty p_def p_kw]; try split; one_param|]); apply Forall2_nil.
Ltac faithful := eapply faithful_one; [reflexivity|reflexivity|matches|matches].
Ltac by_position := eapply by_position_one; [reflexivity|reflexivity|matches].

Lemma serves_one name o target sig : bound name bindings = [o] -> o_target o = target -> Forall2 Matches sig (params o) -> Forall2 Named sig (params o) -> Serves name target sig.
Proof.
  intros E1 <- M Nm pos kw P. unfold call. rewrite E1. apply honoured_one; auto. pose proof (bound_distinct name) as F. rewrite E1 in F. now inversion F.
Qed.
Ltac serves := eapply serves_one; [reflexivity|reflexivity|matches|matches].

(** ** Functions with several overloads *)
Lemma permitted_single k t pos kw : Permitted [rq k t] pos kw -> exists v, Typed t v /\ ((pos = [v] /\ kw = []) \/ (pos = [] /\ kw = [(k, v)])).
Proof.
  intros (P1 & P2 & P3 & P4 & P5). destruct (P4 0 k t eq_refl) as (v & G). exists v. split; [eapply P5; eauto; reflexivity|].
  assert (K : forall k' v', In (k', v') kw -> k' = k /\ pos = []).
  { intros k' v' I. destruct (P3 k' v' I) as (i & t' & n & Hi & E). destruct i as [|[|i]]; try discriminate. cbn in E; inversion E; subst.
    destruct pos; [auto|cbn in Hi; lia]. }
  destruct G as [G|(Hi & k' & t' & n' & E & I)].
  - left. destruct pos as [|w [|w' pos]]; try discriminate; [|cbn in P1; lia]. cbn in G; inversion G; subst. split; auto.
    destruct kw as [|[k' v'] kw]; auto. destruct (K k' v' (or_introl eq_refl)); discriminate.
  - right. destruct (K k' v I) as (-> & ->). split; auto. destruct kw as [|[k1 v1] kw]; [destruct I|].
    destruct (K k1 v1 (or_introl eq_refl)) as (-> & _). destruct kw as [|[k2 v2] kw].
    + destruct I as [I|[]]. now inversion I.
    + destruct (K k2 v2 (or_intror (or_introl eq_refl))) as (-> & _). cbn in P2. inversion P2 as [|x l N _]; subst. exfalso. apply N. now left.
Qed.
Lemma honoured_single target k t v pos kw : (pos = [v] /\ kw = []) \/ (pos = [] /\ kw = [(k, v)]) -> Honoured target [rq k t] pos kw (Called target [v]).
Proof.
  intros C. exists [v]. repeat split; auto.
  - intros i w G. destruct C as [(-> & ->)|(-> & ->)].
    + destruct G as [G|(_ & a & b & c & _ & [])]. exact G.
    + destruct G as [G|(_ & a & b & c & E & I)]; [destruct i; discriminate|]. destruct I as [I|[]]. inversion I; subst. destruct i as [|[|i]]; try discriminate. reflexivity.
  - intros i a b d E. destruct i as [|[|i]]; discriminate.
Qed.
Lemma load_list c t vs : load c (TVector t) (VList vs) = forallb (load c t) vs.
Proof. reflexivity. Qed.
Lemma typed_list t vs : Forall (Typed t) vs -> forallb (load true t) vs = true.
Proof. intros F. apply (typed_load (TVector t) (VList vs) F). Qed.

Definition coupling_overloads : list ov :=
  [Ov "Stack::setCouplingStrength(number)" [("coupling", D)] [req "coupling"]; Ov "Stack::setCouplingStrength(vector)" [("coupling", TVector D)] [req "coupling"]].
Lemma coupling_number v pos kw : Typed D v -> (pos = [v] /\ kw = []) \/ (pos = [] /\ kw = [("coupling", v)]) ->
  dispatch coupling_overloads pos kw = Called "Stack::setCouplingStrength(number)" [v].
Proof. intros T [(-> & ->)|(-> & ->)]; destruct v; try contradiction; reflexivity. Qed.
Lemma coupling_list v pos kw : Typed (TVector D) v -> (pos = [v] /\ kw = []) \/ (pos = [] /\ kw = [("coupling", v)]) ->
  dispatch coupling_overloads pos kw = Called "Stack::setCouplingStrength(vector)" [v].
Proof.
  intros T C. destruct v; try contradiction. pose proof (typed_list D vs T) as E.
  assert (A : forall c, attempt c coupling_overloads pos kw = if forallb (load c D) vs then Called "Stack::setCouplingStrength(vector)" [VList vs] else TypeError).
  { intros c. destruct C as [(-> & ->)|(-> & ->)]; cbn; now rewrite Bool.andb_true_r. }
  unfold dispatch, coupling_overloads at 1. rewrite (A false), (A true), E. now destruct (forallb (load false D) vs).
Qed.
Lemma coupling_serves name : bound name bindings = coupling_overloads -> documented name = [("Stack::setCouplingStrength(number)", [rq "coupling" D])] \/
  documented name = [("Stack::setCouplingStrength(number)", [rq "coupling" D]); ("Stack::setCouplingStrength(vector)", [rq "coupling" (TVector D)])] -> Faithful name.
Proof.
  intros E1 E2 target sig pos kw I P. unfold call. rewrite E1.
  assert (I2 : In (target, sig) [("Stack::setCouplingStrength(number)", [rq "coupling" D]); ("Stack::setCouplingStrength(vector)", [rq "coupling" (TVector D)])]).
  { destruct E2 as [E2|E2]; rewrite E2 in I; auto. destruct I as [I|[]]. now left. }
  destruct I2 as [I2|[I2|[]]]; inversion I2; subst; destruct (permitted_single _ _ _ _ P) as (v & T & C).
  - rewrite (coupling_number v pos kw T C). now apply honoured_single.
  - rewrite (coupling_list v pos kw T C). now apply honoured_single.
Qed.

Lemma faithful_all : Forall Faithful faithful_names.
Proof.
  unfold faithful_names. repeat apply Forall_cons; try apply Forall_nil; try faithful.
  - apply coupling_serves; [reflexivity|left; reflexivity].
  - apply coupling_serves; [reflexivity|right; reflexivity].
Qed.

Ltac typed_args H := repeat match type of H with
  | Forall2 _ (_ :: _) _ => let x := fresh "v" in let r := fresh "r" in let T := fresh "T" in let H2 := fresh "H" in
      inversion H as [|a0 x l0 r T H2]; subst; clear H; rename H2 into H
  | Forall2 _ [] _ => inversion H; subst; clear H end.

Lemma dispatch_many os pos kw : 2 <= length os -> dispatch os pos kw = match attempt false os pos kw with TypeError => attempt true os pos kw | c => c end.
Proof. destruct os as [|o [|o2 os]]; cbn [length]; try lia. reflexivity. Qed.
Lemma axial_by_position : ByPosition "AxialDriver".
Proof.
  apply by_position_direct. repeat apply Forall_cons; try apply Forall_nil; (split; [repeat constructor|]); intros pos H; unfold rq in H; typed_args H.
  - destruct v; try contradiction. destruct v0; try contradiction. destruct v1; try contradiction. cbn in T, T0, T1. subst. reflexivity.
  - destruct v; try contradiction.
    set (os := bound "AxialDriver" bindings).
    assert (A : forall c, attempt c os [VList vs] [] = if forallb (load c SDr) vs then Called "AxialDriver(vector)" [VList vs] else TypeError).
    { intros c. subst os. cbn. now rewrite Bool.andb_true_r. }
    unfold call. fold os. rewrite dispatch_many by (cbn; lia).
    rewrite (A false), (A true), (typed_list SDr vs T). now destruct (forallb _ vs).
  - destruct v; try contradiction; destruct v0; try contradiction; destruct v1; try contradiction; reflexivity.
  - destruct v; try contradiction. cbn in T; subst. reflexivity.
Qed.
Lemma mask_by_position : ByPosition "AxialDriver.applyMask".
Proof.
  apply by_position_direct. repeat apply Forall_cons; try apply Forall_nil; (split; [repeat constructor|]); intros pos H; unfold rq in H; typed_args H.
  - destruct v; try contradiction. cbn in T; subst. reflexivity.
  - destruct v; try contradiction.
    set (os := bound "AxialDriver.applyMask" bindings).
    assert (A : forall c, attempt c os [VList vs] [] = if forallb (load c U) vs then Called "AxialDriver::applyMask(vector)" [VList vs] else TypeError).
    { intros c. subst os. cbn. now rewrite Bool.andb_true_r. }
    unfold call. fold os. rewrite dispatch_many by (cbn; lia).
    rewrite (A false), (A true), (typed_list U vs T). now destruct (forallb _ vs).
Qed.
Lemma reference_by_position : ByPosition "Layer.setReferenceLayer".
Proof.
  apply by_position_direct. repeat apply Forall_cons; try apply Forall_nil; (split; [repeat constructor|]); intros pos H; unfold rq in H; typed_args H.
  - destruct v; try contradiction. cbn in T; subst. reflexivity.
  - destruct v; try contradiction. cbn in T; subst. reflexivity.
Qed.
Lemma uint_load c z : (0 <= z < 2 ^ 32)%Z -> load c U (VInt z) = true.
Proof. intros H. apply load_spec. constructor. exact H. Qed.
Lemma log_by_position name : bound name bindings = [Ov "Stack::getLog(id)" [("id", U)] []; Ov "Stack::getLog()" [] []] ->
  documented name = [("Stack::getLog(id)", [rq "junctionId" U]); ("Stack::getLog()", [])] -> ByPosition name.
Proof.
  intros E1 E2. apply by_position_direct. rewrite E2. repeat apply Forall_cons; try apply Forall_nil; (split; [repeat constructor|]); intros pos H; unfold rq in H; typed_args H; unfold call; rewrite E1.
  - destruct v; try contradiction. cbn [dispatch attempt bind_call params o_kws o_sig map fill p_kw p_ty p_def option_map forallb load_all o_target].
    rewrite uint_load by exact T. reflexivity.
  - reflexivity.
Qed.

Lemma positional_all : Forall (fun n => ByPosition n /\ NoKeywords n) positional_names.
Proof.
  unfold positional_names.
  repeat apply Forall_cons; try apply Forall_nil; (split; [|apply no_keywords; repeat apply Forall_cons; try apply Forall_nil; reflexivity]);
    first [apply axial_by_position | apply mask_by_position | apply reference_by_position | apply log_by_position; reflexivity | by_position].
Qed.
