(** Proofs that compare the bindings with the stubs. *)
From Verif Require Export P_Bind.
Open Scope nat_scope.

Lemma typed_load t : forall v, Typed t v -> load true t v = true.
Proof.
  induction t as [| | | | |c|t IH]; intros v; destruct v; cbn; try tauto; try reflexivity.
  - intros (A & B0). apply Bool.andb_true_iff. split; [now apply Z.leb_le|now apply Z.ltb_lt].
  - intros ->. now destruct c0.
  - intros F. apply forallb_forall. intros x I. apply IH. rewrite Forall_forall in F. auto.
Qed.

(** ** Distinct keywords in the table *)
Fixpoint nodupb (l : list string) : bool :=
  match l with [] => true | x :: r => negb (existsb (String.eqb x) r) && nodupb r end.
Lemma nodupb_sound l : nodupb l = true -> NoDup l.
Proof.
  induction l as [|x r IH]; cbn; [constructor|]. rewrite Bool.andb_true_iff, Bool.negb_true_iff. intros (A & B0). constructor; auto.
  intros I. enough (existsb (String.eqb x) r = true) by congruence. apply existsb_exists. exists x. split; auto. apply String.eqb_refl.
Qed.
Lemma table_distinct : forallb (fun '(_, os) => forallb (fun o => nodupb (map fst (o_kws o))) os) bindings = true.
Proof. vm_compute. reflexivity. Qed.
Lemma bound_in name l : forall o, In o (bound name l) -> exists os, In (name, os) l /\ In o os.
Proof.
  induction l as [|[n os] r IH]; cbn; [tauto|]. intros o. destruct (String.eqb_spec name n) as [->|D0].
  - intros I. exists os. auto.
  - intros I. destruct (IH o I) as (os' & A & B0). exists os'. auto.
Qed.
Lemma bound_distinct name : Forall Distinct (bound name bindings).
Proof.
  apply Forall_forall. intros o I. destruct (bound_in _ _ _ I) as (os & A & B0).
  pose proof table_distinct as T. rewrite forallb_forall in T. specialize (T _ A). cbn in T. rewrite forallb_forall in T.
  apply nodupb_sound. auto.
Qed.

(** ** Signatures that agree with an overload *)
Definition Matches (s : string * ty * need) (p : param) : Prop :=
  let '(k, t, n) := s in p_ty p = t /\
  match n with
  | Required => True
  | SomeDefault => exists d, p_def p = Some d /\ load true t d = true
  | Default d => exists d', p_def p = Some d' /\ load true t d' = true /\ SameValue d d'
  end.
Definition Named (s : string * ty * need) (p : param) : Prop := let '(k, _, _) := s in p_kw p = Some k.
Lemma Forall2_len {A B} (P : A -> B -> Prop) l r : Forall2 P l r -> length l = length r.
Proof. induction 1; cbn; lia. Qed.
Lemma Forall2_at {A B} (P : A -> B -> Prop) l r : Forall2 P l r -> forall i a, nth_error l i = Some a -> exists b, nth_error r i = Some b /\ P a b.
Proof. induction 1; intros [|i] a E; cbn in *; try discriminate; [inversion E; subst; eauto|eauto]. Qed.
Lemma Forall2_at_r {A B} (P : A -> B -> Prop) l r : Forall2 P l r -> forall i b, nth_error r i = Some b -> exists a, nth_error l i = Some a /\ P a b.
Proof. induction 1; intros [|i] a E; cbn in *; try discriminate; [inversion E; subst; eauto|eauto]. Qed.

Lemma matching_takes o sig pos kw : Distinct o -> Forall2 Matches sig (params o) -> (kw = [] \/ Forall2 Named sig (params o)) -> Permitted sig pos kw ->
  exists args, Takes true o pos kw args /\ length args = length sig /\
    (forall i v, Given sig pos kw i v -> nth_error args i = Some v) /\
    (forall i k t d, nth_error sig i = Some (k, t, Default d) -> (forall v, ~ Given sig pos kw i v) ->
       exists d', nth_error args i = Some d' /\ SameValue d d').
Proof.
  intros D0 M Nm (P1 & P2 & P3 & P4 & P5). pose proof (Forall2_len _ _ _ M) as Ls.
  assert (NM : forall i s p k v, nth_error sig i = Some s -> nth_error (params o) i = Some p -> In (k, v) kw -> (fst (fst s) = k <-> p_kw p = Some k)).
  { intros i s p k v Hs Hp I. destruct Nm as [->|Nm]; [destruct I|]. destruct (Forall2_at _ _ _ Nm i s Hs) as (q & Hq & E).
    rewrite Hp in Hq; inversion Hq; subst q. destruct s as [[k' t] n]. cbn in *. rewrite E. split; [intros ->; auto|]. intros E'; inversion E'; auto. }
  assert (GV : forall i v, Given sig pos kw i v -> i < length sig).
  { intros i v [E|(_ & k & t & n & E & _)].
    - assert (i < length pos) by (apply nth_error_Some; congruence). lia.
    - apply nth_error_Some. congruence. }
  destruct (fill_total kw (params o) pos) as (args & Ef).
  - lia.
  - intros i p k Hi Hp Hk. apply (kw_get_none _ _ P2). intros v I. destruct (P3 k v I) as (j & t & n & Hj & E).
    destruct (Forall2_at _ _ _ M j _ E) as (q & Hq & _). pose proof (proj1 (NM j _ q k v E Hq I) eq_refl) as Kq.
    pose proof (params_distinct _ _ _ _ _ _ D0 Hp Hq Hk Kq). lia.
  - intros i p Hi Hp. destruct (Forall2_at_r _ _ _ M i p Hp) as ([[k t] n] & E & Mt). cbn in Mt. destruct Mt as (_ & Mt). destruct n as [|d|].
    + right. destruct (P4 i k t E) as (v & [G|(_ & k' & t' & n' & E' & I)]).
      * assert (i < length pos) by (apply nth_error_Some; congruence). lia.
      * rewrite E in E'; inversion E'; subst. exists k', v. split; [now apply (NM i _ p k' v E Hp I)|now apply kw_get_in].
    + left. destruct Mt as (d' & -> & _). discriminate.
    + left. destruct Mt as (d' & -> & _). discriminate.
  - pose proof (proj1 (fill_spec kw (params o) pos args) Ef) as (F1 & F2 & F3 & F4 & F5).
    assert (GA : forall i v, Given sig pos kw i v -> nth_error args i = Some v).
    { intros i v [E|(Hi & k & t & n & E & I)]; [auto|]. destruct (Forall2_at _ _ _ M i _ E) as (q & Hq & _).
      pose proof (proj1 (NM i _ q k v E Hq I) eq_refl) as Kq. destruct (F5 i q Hi Hq) as (w & E1 & [(k' & K1 & K2)|(K1 & K2)]).
      - rewrite Kq in K1; inversion K1; subst k'. apply (kw_get_in _ _ _ P2) in I. congruence.
      - apply (kw_get_in _ _ _ P2) in I. rewrite (K2 k Kq) in I. discriminate. }
    assert (TK : Takes true o pos kw args).
    { apply takes_spec; auto. split.
      - unfold bind_call. rewrite Ef. replace (forallb (fun '(k, _) => known (params o) k) kw) with true; auto.
        symmetry. apply forallb_forall. intros [k v] I. apply known_spec. destruct (P3 k v I) as (j & t & n & Hj & E).
        destruct (Forall2_at _ _ _ M j _ E) as (q & Hq & _). exists j, q. split; auto. now apply (NM j _ q k v E Hq I).
      - apply load_all_spec; auto. intros i p v Hp Hv. destruct (Forall2_at_r _ _ _ M i p Hp) as ([[k t] n] & E & Mt). cbn in Mt. destruct Mt as (-> & Mt).
        destruct (le_lt_dec (length pos) i) as [Hi|Hi].
        + destruct (F5 i p Hi Hp) as (w & E1 & C). assert (w = v) by congruence. subst w.
          assert (G : (exists u, Given sig pos kw i u) -> Given sig pos kw i v).
          { intros (u & G). pose proof (GA i u G). assert (u = v) by congruence. now subst. }
          destruct C as [(k' & K1 & K2)|(K1 & K2)].
          * apply typed_load. apply (P5 i v k t n); auto. apply (kw_get_in _ _ _ P2) in K2. right. split; auto. exists k', t, n. split; auto.
            pose proof (proj2 (NM i _ p k' v E Hp K2) K1). cbn in *. congruence.
          * destruct n as [|d|].
            -- apply typed_load. apply (P5 i v k t Required); auto. apply G. eauto.
            -- destruct Mt as (d' & Ed & Ld & _). congruence.
            -- destruct Mt as (d' & Ed & Ld). congruence.
        + destruct (nth_error pos i) as [w|] eqn:Ew; [|apply nth_error_None in Ew; lia].
          pose proof (F4 i w Ew). assert (w = v) by congruence. subst w. apply typed_load. apply (P5 i v k t n); auto. now left. }
    exists args. repeat split; auto; try apply TK; try lia.
    intros i k t d E NG. destruct (Forall2_at _ _ _ M i _ E) as (q & Hq & Mt). cbn in Mt. destruct Mt as (_ & d' & Ed & _ & Sv).
    destruct (le_lt_dec (length pos) i) as [Hi|Hi].
    + destruct (F5 i q Hi Hq) as (w & E1 & [(k' & K1 & K2)|(K1 & K2)]).
      * exfalso. apply (kw_get_in _ _ _ P2) in K2. apply (NG w). right. split; auto. exists k', t, (Default d). split; auto.
        pose proof (proj2 (NM i _ q k' w E Hq K2) K1). cbn in *. congruence.
      * exists w. split; auto. congruence.
    + exfalso. destruct (nth_error pos i) as [w|] eqn:Ew; [|apply nth_error_None in Ew; lia]. apply (NG w). now left.
Qed.

Lemma honoured_one o sig pos kw : Distinct o -> Forall2 Matches sig (params o) -> (kw = [] \/ Forall2 Named sig (params o)) -> Permitted sig pos kw ->
  Honoured (o_target o) sig pos kw (dispatch [o] pos kw).
Proof.
  intros D0 M Nm P. destruct (matching_takes o sig pos kw D0 M Nm P) as (args & T & Ls & G & Df). exists args. repeat split; auto.
  apply dispatch_called; [repeat constructor; auto|apply P|]. right. split; [left; cbn; lia|]. exists [], o, []. repeat split; auto; try apply T. intros o' a [].
Qed.
Lemma faithful_one name o sig : bound name bindings = [o] -> documented name = [(o_target o, sig)] ->
  Forall2 Matches sig (params o) -> Forall2 Named sig (params o) -> Faithful name.
Proof.
  intros E1 E2 M Nm target s pos kw I P. rewrite E2 in I. destruct I as [I|[]]. inversion I; subst. unfold call. rewrite E1.
  apply honoured_one; auto. pose proof (bound_distinct name) as F. rewrite E1 in F. now inversion F.
Qed.
Lemma by_position_one name o sig : bound name bindings = [o] -> documented name = [(o_target o, sig)] ->
  Forall2 Matches sig (params o) -> ByPosition name.
Proof.
  intros E1 E2 M target s pos I P. rewrite E2 in I. destruct I as [I|[]]. inversion I; subst. unfold call. rewrite E1.
  apply honoured_one; auto. pose proof (bound_distinct name) as F. rewrite E1 in F. now inversion F.
Qed.

(** ** Keywords nobody knows *)
Lemma attempt_unknown c k v kw pos os : In (k, v) kw -> (forall o, In o os -> known (params o) k = false) -> attempt c os pos kw = TypeError.
Proof.
  intros I. induction os as [|o os IH]; intros A; cbn [attempt]; auto.
  replace (bind_call (params o) pos kw) with (@None (list val)); [apply IH; intros o' I'; apply A; now right|].
  unfold bind_call. destruct (fill (params o) pos kw); auto. destruct (forallb _ kw) eqn:E; auto. rewrite forallb_forall in E.
  specialize (E _ I). cbn in E. rewrite (A o) in E by now left. discriminate.
Qed.
Lemma unknown_keyword os pos kw k v : In (k, v) kw -> (forall o, In o os -> known (params o) k = false) -> dispatch os pos kw = TypeError.
Proof.
  intros I A. unfold dispatch. destruct os as [|o [|o2 os]]; try (eapply attempt_unknown; eauto).
  rewrite (attempt_unknown false k v) by auto. eapply attempt_unknown; eauto.
Qed.
Lemma no_keywords name : Forall (fun o => o_kws o = []) (bound name bindings) -> NoKeywords name.
Proof.
  intros F pos kw H. destruct kw as [|[k v] kw]; [congruence|]. unfold call. apply (unknown_keyword _ _ _ k v); [now left|].
  intros o I. rewrite Forall_forall in F. pose proof (F o I) as E. unfold params. rewrite E. unfold known.
  induction (o_sig o) as [|[n t] r IH]; cbn; auto.
Qed.

(** ** Calls without keywords of functions all of whose parameters are required *)
Lemma permitted_positional sig pos : Forall (fun '(_, _, n) => n = Required) sig -> Permitted sig pos [] -> Forall2 (fun '(_, t, _) v => Typed t v) sig pos.
Proof.
  intros Rq (P1 & _ & _ & P4 & P5).
  assert (A : forall i k t n, nth_error sig i = Some (k, t, n) -> exists v, nth_error pos i = Some v /\ Typed t v).
  { intros i k t n E. assert (n = Required). { rewrite Forall_forall in Rq. apply nth_error_In in E. now apply Rq in E. } subst n.
    destruct (P4 i k t E) as (v & G). exists v. split; [|eapply P5; eauto]. destruct G as [G|(_ & k' & t' & n' & _ & [])]. exact G. }
  clear P4 P5 Rq. revert pos P1 A. induction sig as [|[[k t] n] sig IH]; intros pos P1 A.
  - destruct pos; [constructor|cbn in P1; lia].
  - destruct (A 0 k t n eq_refl) as (v & E & T). destruct pos as [|w pos]; [discriminate|]. cbn in E; inversion E; subst.
    constructor; auto. apply IH; [cbn in P1; lia|]. intros i k' t' n' E'. apply (A (S i) k' t' n' E').
Qed.
Lemma honoured_exact target sig pos : Forall (fun '(_, _, n) => n = Required) sig -> length pos = length sig -> Honoured target sig pos [] (Called target pos).
Proof.
  intros Rq L. exists pos. repeat split; auto.
  - intros i v [G|(_ & k & t & n & _ & [])]. exact G.
  - intros i k t d E. rewrite Forall_forall in Rq. apply nth_error_In in E. apply Rq in E. discriminate.
Qed.
Lemma by_position_direct name :
  Forall (fun '(target, sig) => Forall (fun '(_, _, n) => n = Required) sig /\
     forall pos, Forall2 (fun '(_, t, _) v => Typed t v) sig pos -> call name pos [] = Called target pos) (documented name) ->
  ByPosition name.
Proof.
  intros F target sig pos I P. rewrite Forall_forall in F. destruct (F _ I) as (Rq & A). pose proof (permitted_positional _ _ Rq P) as F2.
  rewrite (A pos F2). apply honoured_exact; auto. symmetry. eapply Forall2_len; eauto.
Qed.
