(** Proofs about calls through the Python interface. *)
From Verif Require Export S_Bind.
Open Scope nat_scope.

Lemma kw_get_in kw k v : NoDup (map fst kw) -> kw_get k kw = Some v <-> In (k, v) kw.
Proof.
  induction kw as [|[k' v'] r IH]; cbn; intros N; [split; [discriminate|tauto]|].
  inversion N as [|x l N1 N2 E]; subst. destruct (String.eqb_spec k k') as [->|D0].
  - split; [intros E; inversion E; auto|]. intros [E|E]; [inversion E; auto|].
    exfalso. apply N1. now apply (in_map fst) in E.
  - rewrite (IH N2). split; [auto|]. intros [E|E]; auto. inversion E; congruence.
Qed.
Lemma kw_get_none kw k : NoDup (map fst kw) -> kw_get k kw = None <-> forall v, ~ In (k, v) kw.
Proof.
  intros N. split.
  - intros E v I. apply (kw_get_in _ _ _ N) in I. congruence.
  - intros A. destruct (kw_get k kw) as [v|] eqn:E; auto. apply (kw_get_in _ _ _ N) in E. now apply A in E.
Qed.

Definition Fills (ps : list param) (pos : list val) (kw : kwargs) (args : list val) : Prop :=
  length args = length ps /\ length pos <= length ps /\
  (forall i p k, i < length pos -> nth_error ps i = Some p -> p_kw p = Some k -> kw_get k kw = None) /\
  (forall i v, nth_error pos i = Some v -> nth_error args i = Some v) /\
  (forall i p, length pos <= i -> nth_error ps i = Some p -> exists v, nth_error args i = Some v /\
     ((exists k, p_kw p = Some k /\ kw_get k kw = Some v) \/ (p_def p = Some v /\ forall k, p_kw p = Some k -> kw_get k kw = None))).
Lemma fill_spec kw ps : forall pos args, fill ps pos kw = Some args <-> Fills ps pos kw args.
Proof.
  unfold Fills. induction ps as [|p ps IH]; intros pos args.
  - destruct pos as [|v pos]; cbn.
    + split.
      * intros E; inversion E; subst. repeat split; cbn; auto; try lia; try (intros [|i]; cbn; intros; discriminate).
      * intros (L & _). destruct args; [auto|cbn in L; lia].
    + split; [discriminate|]. intros (_ & L & _). cbn in L; lia.
  - destruct pos as [|v pos]; cbn [fill].
    + assert (A : forall w, (exists k, p_kw p = Some k /\ kw_get k kw = Some w) \/ (p_def p = Some w /\ forall k, p_kw p = Some k -> kw_get k kw = None) ->
        match (match p_kw p with Some k => kw_get k kw | None => None end), p_def p with
        | Some v, _ => option_map (cons v) (fill ps [] kw) | None, Some v => option_map (cons v) (fill ps [] kw) | None, None => None end
        = option_map (cons w) (fill ps [] kw)).
      { intros w [(k & E1 & E2)|(E1 & E2)].
        - now rewrite E1, E2.
        - destruct (p_kw p) as [k|]; [rewrite (E2 k eq_refl)|]; now rewrite E1. }
      split.
      * intros E.
        assert (C : exists w, (exists k, p_kw p = Some k /\ kw_get k kw = Some w) \/ (p_def p = Some w /\ forall k, p_kw p = Some k -> kw_get k kw = None)).
        { destruct (p_kw p) as [k|] eqn:Ek.
          - destruct (kw_get k kw) as [w|] eqn:Ew; [exists w; left; eauto|].
            destruct (p_def p) as [w|]; [|discriminate]. exists w; right; split; auto. intros k' E'; inversion E'; congruence.
          - destruct (p_def p) as [w|]; [|discriminate]. exists w; right; split; auto. intros k' E'; discriminate. }
        destruct C as (w & C). rewrite (A w C) in E. destruct (fill ps [] kw) as [a|] eqn:Ef; [|discriminate].
        cbn in E. inversion E; subst. apply IH in Ef. destruct Ef as (F1 & F2 & F3 & F4 & F5).
        repeat split; cbn; try lia; try (intros i v Hv; destruct i; discriminate).
        intros [|i] q Hi Hq; cbn in *.
        -- inversion Hq; subst. eauto.
        -- apply (F5 i q); auto; lia.
      * intros (F1 & F2 & F3 & F4 & F5). destruct (F5 0 p) as (w & E & C); [cbn; lia|auto|].
        rewrite (A w C). destruct args as [|w' args]; [discriminate|]. cbn in E; inversion E; subst.
        assert (Ef : fill ps [] kw = Some args).
        { apply IH. repeat split; cbn in *; try lia; try (intros i v Hv; destruct i; discriminate).
          intros i q Hi Hq. apply (F5 (S i) q); auto; lia. }
        now rewrite Ef.
    + split.
      * intros E.
        assert (C : (forall k, p_kw p = Some k -> kw_get k kw = None) /\ option_map (cons v) (fill ps pos kw) = Some args).
        { destruct (p_kw p) as [k|] eqn:Ek; [|split; [intros; discriminate|auto]].
          destruct (kw_get k kw) eqn:Ew; [discriminate|]. split; auto. intros k' E'; inversion E'; congruence. }
        destruct C as (C1 & C2). destruct (fill ps pos kw) as [a|] eqn:Ef; [|discriminate]. cbn in C2; inversion C2; subst.
        apply IH in Ef. destruct Ef as (F1 & F2 & F3 & F4 & F5).
        repeat split; cbn in *; try lia.
        -- intros [|i] q k Hi Hq Hk; cbn in *; [inversion Hq; subst; eauto|]. apply (F3 i q k); auto; lia.
        -- intros [|i] w Hw; cbn in *; auto.
        -- intros [|i] q Hi Hq; cbn in *; [lia|]. apply (F5 i q); auto; lia.
      * intros (F1 & F2 & F3 & F4 & F5). destruct args as [|w args]; [discriminate|].
        pose proof (F4 0 v eq_refl) as E; cbn in E; inversion E; subst.
        assert (Ef : fill ps pos kw = Some args).
        { apply IH. repeat split; cbn in *; try lia.
          - intros i q k Hi Hq Hk. apply (F3 (S i) q k); auto; lia.
          - intros i u Hu. apply (F4 (S i) u Hu).
          - intros i q Hi Hq. apply (F5 (S i) q); auto; lia. }
        rewrite Ef. destruct (p_kw p) as [k|] eqn:Ek; auto. rewrite (F3 0 p k); cbn; auto; lia.
Qed.

Lemma fill_total kw ps : forall pos,
  length pos <= length ps ->
  (forall i p k, i < length pos -> nth_error ps i = Some p -> p_kw p = Some k -> kw_get k kw = None) ->
  (forall i p, length pos <= i -> nth_error ps i = Some p -> p_def p <> None \/ exists k v, p_kw p = Some k /\ kw_get k kw = Some v) ->
  exists args, fill ps pos kw = Some args.
Proof.
  induction ps as [|p ps IH]; intros pos L A B0.
  - destruct pos; cbn in *; [eauto|lia].
  - destruct pos as [|v pos]; cbn [fill].
    + destruct (IH [] ltac:(cbn; lia)) as (a & E).
      * intros i q k Hi; cbn in Hi; lia.
      * intros i q Hi Hq. apply (B0 (S i) q); auto; cbn; lia.
      * rewrite E. cbn. destruct (B0 0 p ltac:(cbn; lia) eq_refl) as [Hd|(k & w & E1 & E2)].
        -- destruct (p_kw p) as [k|]; [destruct (kw_get k kw); [eauto|]|]; destruct (p_def p); eauto; congruence.
        -- rewrite E1, E2. eauto.
    + destruct (IH pos) as (a & E).
      * cbn in L; lia.
      * intros i q k Hi Hq Hk. apply (A (S i) q k); auto; cbn; lia.
      * intros i q Hi Hq. apply (B0 (S i) q); auto; cbn; lia.
      * rewrite E. cbn. destruct (p_kw p) as [k|] eqn:Ek; [|eauto]. rewrite (A 0 p k); cbn; eauto; lia.
Qed.

Lemma known_spec ps k : known ps k = true <-> exists i p, nth_error ps i = Some p /\ p_kw p = Some k.
Proof.
  unfold known. rewrite existsb_exists. split.
  - intros (p & I & E). apply In_nth_error in I. destruct I as (i & I). exists i, p. split; auto.
    destruct (p_kw p); [|discriminate]. apply String.eqb_eq in E. now subst.
  - intros (i & p & I & E). exists p. split; [eapply nth_error_In; eauto|]. rewrite E. apply String.eqb_refl.
Qed.
Lemma load_all_spec c ps : forall vs, length vs = length ps ->
  load_all c ps vs = true <-> forall i p v, nth_error ps i = Some p -> nth_error vs i = Some v -> load c (p_ty p) v = true.
Proof.
  induction ps as [|p ps IH]; intros [|v vs] L; cbn in *; try lia.
  - split; auto. intros _ [|i] q w H; discriminate.
  - rewrite Bool.andb_true_iff, (IH vs) by lia. split.
    + intros (A & B0) [|i] q w Hq Hw; cbn in *; [inversion Hq; inversion Hw; now subst|eauto].
    + intros A. split; [apply (A 0 p v); auto|]. intros i q w Hq Hw. apply (A (S i) q w); auto.
Qed.

Lemma load_sound c t : forall v, load c t v = true -> Loads c t v.
Proof.
  induction t as [| | | | |k|t IH]; intros v; destruct v; cbn; intros A; try discriminate.
  all: try (constructor; fail). all: try (constructor; exact A).
  - apply Bool.andb_true_iff in A. destruct A as (A & B0). apply Z.leb_le in A. apply Z.ltb_lt in B0. constructor. lia.
  - assert (k = c0) by (destruct k, c0; try discriminate; reflexivity). subst. constructor.
  - destruct c0; try discriminate. destruct t; try discriminate. constructor.
  - rewrite forallb_forall in A. constructor. intros v I. apply IH. auto.
Qed.
Lemma load_complete c t v : Loads c t v -> load c t v = true.
Proof.
  induction 1; cbn; auto.
  - apply Bool.andb_true_iff. split; [apply Z.leb_le|apply Z.ltb_lt]; lia.
  - now destruct k.
  - apply forallb_forall. auto.
Qed.
Lemma load_spec c t v : load c t v = true <-> Loads c t v.
Proof. split; [apply load_sound|apply load_complete]. Qed.
(** Keywords of an overload are distinct. *)
Definition Distinct (o : ov) : Prop := NoDup (map fst (o_kws o)).
Lemma params_kw o i p k : nth_error (params o) i = Some p -> p_kw p = Some k -> nth_error (map fst (o_kws o)) i = Some k.
Proof.
  unfold params. destruct (o_kws o) as [|kd ks] eqn:E.
  - intros H1 H2. exfalso. rewrite nth_error_map in H1. destruct (nth_error (o_sig o) i) as [[n t]|]; [|discriminate]. cbn in H1. inversion H1; subst. discriminate.
  - rewrite <- E. clear E kd ks. generalize (o_sig o) as sg. revert i. induction (o_kws o) as [|[k0 d0] ks IH]; intros i sg H1 H2.
    + destruct i; discriminate.
    + destruct sg as [|[n t] sg]; [destruct i; discriminate|]. destruct i as [|i]; cbn in *.
      * inversion H1; subst. exact H2.
      * eauto.
Qed.
Lemma params_distinct o i j p q k : Distinct o -> nth_error (params o) i = Some p -> nth_error (params o) j = Some q ->
  p_kw p = Some k -> p_kw q = Some k -> i = j.
Proof.
  intros D0 Hi Hj Ki Kj. apply (params_kw _ _ _ _ Hi) in Ki. apply (params_kw _ _ _ _ Hj) in Kj.
  eapply (proj1 (NoDup_nth_error _) D0); [apply nth_error_Some; congruence|congruence].
Qed.

Lemma takes_spec c o pos kw args : Distinct o -> NoDup (map fst kw) ->
  (bind_call (params o) pos kw = Some args /\ load_all c (params o) args = true) <-> Takes c o pos kw args.
Proof.
  intros D0 N. unfold bind_call, Takes. split.
  - intros (E & Ll). destruct (fill (params o) pos kw) as [a|] eqn:Ef; [|discriminate].
    destruct (forallb _ kw) eqn:Ek; [|discriminate]. inversion E; subst a. apply fill_spec in Ef.
    destruct Ef as (F1 & F2 & F3 & F4 & F5). pose proof (proj1 (load_all_spec c (params o) args F1) Ll) as Ll2.
    rewrite forallb_forall in Ek. repeat split; auto; [| |intros i p v Hp Hv; apply load_spec; eauto].
    + intros k v I. pose proof (Ek _ I) as Kn. cbn in Kn. apply known_spec in Kn. destruct Kn as (i & p & Hi & Hk).
      exists i, p. repeat split; auto. destruct (le_lt_dec (length pos) i); auto. exfalso.
      apply (kw_get_in _ _ _ N) in I. rewrite (F3 i p k) in I by auto. discriminate.
    + intros i p Hi Hp. destruct (F5 i p Hi Hp) as (v & E1 & [(k & K1 & K2)|(K1 & K2)]); exists v; split; auto.
      * left. exists k. split; auto. now apply kw_get_in.
      * right. split; auto. intros k w Hk. apply (proj1 (kw_get_none _ _ N) (K2 k Hk)).
  - intros (F1 & F2 & F3 & F4 & F5 & F6).
    assert (Ef : fill (params o) pos kw = Some args).
    { apply fill_spec. repeat split; auto.
      - intros i p k Hi Hp Hk. apply (kw_get_none _ _ N). intros v I. destruct (F3 k v I) as (j & q & Hj & Hq & Hk').
        pose proof (params_distinct _ _ _ _ _ _ D0 Hp Hq Hk Hk'). lia.
      - intros i p Hi Hp. destruct (F5 i p Hi Hp) as (v & E1 & [(k & K1 & K2)|(K1 & K2)]); exists v; split; auto.
        + left. exists k. split; auto. now apply kw_get_in.
        + right. split; auto. intros k Hk. apply (kw_get_none _ _ N). intros w. now apply K2. }
    rewrite Ef. replace (forallb (fun '(k, _) => known (params o) k) kw) with true.
    + split; auto. apply load_all_spec; auto. intros i p v Hp Hv. apply load_spec; eauto.
    + symmetry. apply forallb_forall. intros [k v] I. apply known_spec. destruct (F3 k v I) as (i & p & _ & A & B0). eauto.
Qed.

Lemma attempt_called c pos kw os : Forall Distinct os -> NoDup (map fst kw) -> forall t args,
  attempt c os pos kw = Called t args <-> First c os pos kw t args.
Proof.
  intros F N. unfold First. induction F as [|o os D0 F IH]; intros t args; cbn [attempt].
  - split; [discriminate|]. intros (b & o & a & E & _). destruct b; discriminate.
  - destruct (bind_call (params o) pos kw) as [vs|] eqn:Eb; [destruct (load_all c (params o) vs) eqn:El|].
    + assert (T : Takes c o pos kw vs) by (apply takes_spec; auto).
      split.
      * intros E; inversion E; subst. exists [], o, os. repeat split; auto; try apply T. intros o' a [].
      * intros (b & o' & a & E & Rf & T' & Et). destruct b as [|o0 b].
        -- cbn in E; inversion E; subst. apply (takes_spec c o' pos kw args D0 N) in T'. destruct T' as (T1 & T2). congruence.
        -- cbn in E; inversion E; subst. exfalso. apply (Rf o0 vs); cbn; auto.
    + rewrite IH. split.
      * intros (b & o' & a & E & Rf & T' & Et). exists (o :: b), o', a. subst os. repeat split; auto; try apply T'.
        intros o1 a1 [->|I] T1; [|eapply Rf; eauto]. apply (takes_spec c o1 pos kw a1 D0 N) in T1. destruct T1 as (T1 & T2). congruence.
      * intros (b & o' & a & E & Rf & T' & Et). destruct b as [|o0 b]; cbn in E; inversion E; subst.
        -- apply (takes_spec c o' pos kw args D0 N) in T'. destruct T' as (T1 & T2). congruence.
        -- exists b, o', a. repeat split; auto; try apply T'. intros o1 a1 I. apply Rf. now right.
    + rewrite IH. split.
      * intros (b & o' & a & E & Rf & T' & Et). exists (o :: b), o', a. subst os. repeat split; auto; try apply T'.
        intros o1 a1 [->|I] T1; [|eapply Rf; eauto]. apply (takes_spec c o1 pos kw a1 D0 N) in T1. destruct T1 as (T1 & T2). congruence.
      * intros (b & o' & a & E & Rf & T' & Et). destruct b as [|o0 b]; cbn in E; inversion E; subst.
        -- apply (takes_spec c o' pos kw args D0 N) in T'. destruct T' as (T1 & T2). congruence.
        -- exists b, o', a. repeat split; auto; try apply T'. intros o1 a1 I. apply Rf. now right.
Qed.
Lemma attempt_refused c pos kw os : Forall Distinct os -> NoDup (map fst kw) ->
  attempt c os pos kw = TypeError <-> Refuses c os pos kw.
Proof.
  intros F N. unfold Refuses. induction F as [|o os D0 F IH]; cbn [attempt].
  - split; [intros _ o a []|auto].
  - destruct (bind_call (params o) pos kw) as [vs|] eqn:Eb; [destruct (load_all c (params o) vs) eqn:El|].
    + split; [discriminate|]. intros A. exfalso. apply (A o vs); [now left|]. apply takes_spec; auto.
    + rewrite IH. split.
      * intros A o1 a1 [->|I] T1; [|eapply A; eauto]. apply (takes_spec c o1 pos kw a1 D0 N) in T1. destruct T1; congruence.
      * intros A o1 a1 I. apply A. now right.
    + rewrite IH. split.
      * intros A o1 a1 [->|I] T1; [|eapply A; eauto]. apply (takes_spec c o1 pos kw a1 D0 N) in T1. destruct T1; congruence.
      * intros A o1 a1 I. apply A. now right.
Qed.

Lemma dispatch_called os pos kw t args : Forall Distinct os -> NoDup (map fst kw) ->
  dispatch os pos kw = Called t args <->
  (2 <= length os /\ First false os pos kw t args) \/
  ((length os <= 1 \/ Refuses false os pos kw) /\ First true os pos kw t args).
Proof.
  intros F N. unfold dispatch. destruct os as [|o [|o2 os]].
  - rewrite (attempt_called true pos kw _ F N t args). cbn. split; [intros A; right; split; auto|]. intros [(A & _)|(_ & A)]; [lia|auto].
  - rewrite (attempt_called true pos kw _ F N t args). cbn. split; [intros A; right; split; auto|]. intros [(A & _)|(_ & A)]; [lia|auto].
  - remember (o :: o2 :: os) as l eqn:El. assert (Hl : 2 <= length l) by (subst; cbn; lia). clear El.
    destruct (attempt false l pos kw) as [t' a'|] eqn:E.
    + pose proof (proj1 (attempt_called false pos kw _ F N t' a') E) as Hf. split.
      * intros E'; inversion E'; subst. left. split; auto.
      * intros [(_ & A)|([L|A] & _)]; [|lia|].
        -- apply (attempt_called false pos kw _ F N) in A. congruence.
        -- apply (attempt_refused false pos kw _ F N) in A. congruence.
    + rewrite (attempt_called true pos kw _ F N t args). pose proof (proj1 (attempt_refused false pos kw _ F N) E). split.
      * intros A. right. split; auto.
      * intros [(_ & A)|(_ & A)]; auto. apply (attempt_called false pos kw _ F N) in A. congruence.
Qed.
Lemma dispatch_refused os pos kw : Forall Distinct os -> NoDup (map fst kw) ->
  dispatch os pos kw = TypeError <-> (length os <= 1 \/ Refuses false os pos kw) /\ Refuses true os pos kw.
Proof.
  intros F N. unfold dispatch. destruct os as [|o [|o2 os]].
  - rewrite (attempt_refused true pos kw _ F N). cbn. intuition lia.
  - rewrite (attempt_refused true pos kw _ F N). cbn. intuition lia.
  - remember (o :: o2 :: os) as l eqn:El. assert (Hl : 2 <= length l) by (subst; cbn; lia). clear El.
    destruct (attempt false l pos kw) as [t' a'|] eqn:E.
    + split; [discriminate|]. intros ([L|A] & _); [lia|]. apply (attempt_refused false pos kw _ F N) in A. congruence.
    + rewrite (attempt_refused true pos kw _ F N). pose proof (proj1 (attempt_refused false pos kw _ F N) E). intuition.
Qed.
