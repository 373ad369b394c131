(** Proofs about cached methods. *)
From Verif Require Export S_Memo.
From Coq Require Import Psatz.
Open Scope R_scope.
Open Scope st_scope.

Section Memo.
  Context {St A V : Type} (hash : St -> A -> Z) (same : St -> St -> bool) (arg_eqb : A -> A -> bool) (f : St -> A -> result V) (maxsize : nat).
  Context (argE : forall a b, arg_eqb a b = true <-> a = b).
  Notation call := (lru_call hash same arg_eqb f maxsize).
  Notation run := (lru_run hash same arg_eqb f maxsize).
  Definition honest (c : list (entry A V)) : Prop := forall e, In e c -> exists s, en_hash e = hash s (en_arg e) /\ f s (en_arg e) = Ok (en_val e).
  Lemma pick_some m r a (c : list (entry A V)) e others : pick hash same arg_eqb m r a c = Some (e, others) -> hit hash same arg_eqb m r a e = true /\ In e c /\ forall x, In x others -> In x c.
  Proof.
    revert others. induction c as [|x c IH]; intros others P; cbn in P; [discriminate|]. destruct (hit hash same arg_eqb m r a x) eqn:Hx.
    - injection P as <- <-. cbn. auto.
    - destruct (pick hash same arg_eqb m r a c) as [[y os]|] eqn:E; [|discriminate]. injection P as <- <-. destruct (IH os eq_refl) as (A1 & A2 & A3). cbn. repeat split; auto. intros z [<-|Z]; auto.
  Qed.
  Lemma pick_none m r a (c : list (entry A V)) : pick hash same arg_eqb m r a c = None <-> forall e, In e c -> hit hash same arg_eqb m r a e = false.
  Proof.
    induction c as [|x c IH]; cbn; [split; [intros _ ? []|reflexivity]|]. destruct (hit hash same arg_eqb m r a x) eqn:Hx.
    - split; [discriminate|]. intros F. rewrite (F x (or_introl eq_refl)) in Hx. discriminate.
    - destruct (pick hash same arg_eqb m r a c) as [[y os]|] eqn:E.
      + split; [discriminate|]. intros F. assert (X : Some (y, os) = None) by (apply IH; intros; apply F; auto). discriminate.
      + split; [|reflexivity]. intros _ e [<-|I]; [exact Hx|]. apply IH; auto.
  Qed.
  Lemma firstn_in {X} n (l : list X) x : In x (firstn n l) -> In x l.
  Proof. intros I. rewrite <- (firstn_skipn n l). apply in_app_iff. auto. Qed.
  Lemma call_honest m c r a c' v b : hash_decides hash f -> honest c -> call m c r a = (c', v, b) -> honest c' /\ v = f (m r) a.
  Proof.
    intros D H. unfold lru_call. destruct (pick hash same arg_eqb m r a c) as [[e os]|] eqn:P.
    - destruct (pick_some _ _ _ _ _ _ P) as (Hh & I & Os). intros E. injection E as <- <- <-. split.
      + intros x [<-|X]; auto.
      + unfold hit in Hh. apply andb_prop in Hh. destruct Hh as [Hh Ha]. apply andb_prop in Hh. destruct Hh as [Hh _]. apply Z.eqb_eq in Hh. apply argE in Ha. destruct (H e I) as (s & Hs & F). symmetry. apply (D s); [|rewrite <- Ha; exact F]. rewrite <- Hh, Hs, Ha. reflexivity.
    - destruct (f (m r) a) as [w|e] eqn:F; intros E; injection E as <- <- <-; split; auto. intros x X. apply firstn_in in X. destruct X as [<-|X]; [exists (m r); cbn; auto|auto].
  Qed.
  Lemma run_honest ops : forall m c, hash_decides hash f -> honest c -> map fst (fst (run m c ops)) = answers f m ops.
  Proof.
    induction ops as [|[r s|r a] ops IH]; intros m c D H; cbn [lru_run answers]; [reflexivity|apply IH; assumption|].
    destruct (call m c r a) as [[c' v] b] eqn:E. destruct (call_honest _ _ _ _ _ _ _ D H E) as [H' ->]. destruct (run m c' ops) as [out c''] eqn:R. cbn. f_equal. rewrite <- (IH m c' D H'), R. reflexivity.
  Qed.
  Lemma transparent_iff : (1 <= maxsize)%nat -> ((forall m ops, map fst (fst (run m [] ops)) = answers f m ops) <-> hash_decides hash f).
  Proof.
    intros MS. split.
    - intros T s s' a v Hh F. specialize (T (fun _ => s) [Ask 0%nat a; Assign 0%nat s'; Ask 0%nat a]). cbn [lru_run answers] in T. unfold lru_call at 1 in T. cbn [pick] in T. rewrite F in T. cbn iota beta in T.
      destruct maxsize as [|n] eqn:En; [lia|]. cbn [firstn] in T. rewrite firstn_nil in T. unfold lru_call in T. cbn [pick] in T. unfold hit in T. cbn [en_hash en_ref en_arg en_val store] in T. unfold store in T. cbn [Nat.eqb] in T.
      rewrite Hh, Z.eqb_refl, (proj2 (argE a a) eq_refl) in T. cbn [andb orb fst map] in T. injection T as T. symmetry. exact T.
    - intros D m ops. apply run_honest; [exact D|]. intros e [].
  Qed.
  Lemma call_size m c r a c' v b : (length c <= maxsize)%nat -> call m c r a = (c', v, b) -> (length c' <= maxsize)%nat.
  Proof.
    assert (PL : forall (c : list (entry A V)) e os, pick hash same arg_eqb m r a c = Some (e, os) -> length c = S (length os)).
    { clear. induction c as [|x c IH]; intros e os P; cbn in P; [discriminate|]. destruct (hit hash same arg_eqb m r a x); [injection P as <- <-; reflexivity|]. destruct (pick hash same arg_eqb m r a c) as [[y ys]|] eqn:E; [|discriminate]. injection P as <- <-. cbn. rewrite (IH y ys eq_refl). reflexivity. }
    intros L. unfold lru_call. destruct (pick hash same arg_eqb m r a c) as [[e os]|] eqn:P.
    - intros E. injection E as <- <- <-. rewrite (PL _ _ _ P) in L. exact L.
    - destruct (f (m r) a); intros E; injection E as <- <- <-; [|exact L]. rewrite firstn_length. lia.
  Qed.
  Lemma run_size ops : forall m c, (length c <= maxsize)%nat -> (length (snd (run m c ops)) <= maxsize)%nat.
  Proof.
    induction ops as [|[r s|r a] ops IH]; intros m c L; cbn [lru_run]; [exact L|apply IH, L|]. destruct (call m c r a) as [[c' v] b] eqn:E. specialize (IH m c' (call_size _ _ _ _ _ _ _ L E)). destruct (run m c' ops). exact IH.
  Qed.
  (** Failing calls are evaluated every time. *)
  Lemma call_fails m c r a e : hash_decides hash f -> honest c -> f (m r) a = Err e -> call m c r a = (c, Err e, true).
  Proof.
    intros D H F. destruct (call m c r a) as [[c' v] b] eqn:E. destruct (call_honest _ _ _ _ _ _ _ D H E) as [_ ->]. unfold lru_call in E. destruct (pick hash same arg_eqb m r a c) as [[x os]|]; [injection E as _ E _; congruence|]. rewrite F in E |- *. symmetry. exact E.
  Qed.
End Memo.

(** ** Which calls are evaluated *)
Section Lru.
  Context {St A V : Type} (hash : St -> A -> Z) (same : St -> St -> bool) (arg_eqb : A -> A -> bool) (f : St -> A -> result V) (maxsize : nat).
  Context (argE : forall a b, arg_eqb a b = true <-> a = b) (hashI : forall s s' a a', hash s a = hash s' a' -> s = s' /\ a = a') (sameR : forall s, same s s = true).
  Context (dec : forall x y : St * A, {x = y} + {x <> y}).
  Notation call := (lru_call hash same arg_eqb f maxsize).
  Notation run := (lru_run hash same arg_eqb f maxsize).
  Definition keys (m : nat -> St) (c : list (entry A V)) : list (St * A) := map (fun e => (m (en_ref e), en_arg e)) c.
  Definition stored (m : nat -> St) (c : list (entry A V)) : Prop := forall e, In e c -> en_hash e = hash (m (en_ref e)) (en_arg e).
  Lemma hit_iff m r a (e : entry A V) : en_hash e = hash (m (en_ref e)) (en_arg e) -> (hit hash same arg_eqb m r a e = true <-> (m (en_ref e), en_arg e) = (m r, a)).
  Proof.
    intros S. unfold hit. rewrite S. split.
    - intros H. apply andb_prop in H. destruct H as [H _]. apply andb_prop in H. destruct H as [H _]. apply Z.eqb_eq, hashI in H. destruct H. congruence.
    - intros E. injection E as E1 E2. rewrite E1, E2, Z.eqb_refl, sameR, (proj2 (argE a a) eq_refl), Bool.orb_true_r. reflexivity.
  Qed.
  Lemma drop_in k l x : In x (drop dec k l) <-> In x l /\ x <> k.
  Proof.
    induction l as [|y l IH]; cbn; [tauto|]. destruct (dec y k) as [->|N]; cbn; rewrite IH; split; intros H; intuition congruence.
  Qed.
  Lemma drop_absent k l : ~ In k l -> drop dec k l = l.
  Proof. induction l as [|y l IH]; intros N; cbn; [reflexivity|]. destruct (dec y k) as [->|D]; [exfalso; apply N; left; reflexivity|]. rewrite IH; [reflexivity|]. intros I. apply N. right. exact I. Qed.
  Lemma drop_nodup k l : NoDup l -> NoDup (drop dec k l).
  Proof. induction 1 as [|y l Y N IH]; cbn; [constructor|]. destruct (dec y k); [exact IH|]. constructor; [|exact IH]. intros I. apply drop_in in I. tauto. Qed.
  Lemma firstn_drop_in k l : forall n, NoDup l -> In k (firstn (S n) l) -> firstn n (drop dec k l) = drop dec k (firstn (S n) l).
  Proof.
    induction l as [|y l IH]; intros n N I; [destruct I|]. inversion N; subst. cbn [firstn drop]. cbn [firstn In] in I. destruct (dec y k) as [->|D].
    - rewrite (drop_absent k l H1). rewrite drop_absent; [reflexivity|]. intros X. apply H1, (firstn_in _ _ _ X).
    - destruct I as [E|I]; [contradiction|]. destruct n as [|n]; [destruct I|]. cbn [firstn]. f_equal. apply IH; assumption.
  Qed.
  Lemma firstn_drop_out k l : forall n, ~ In k (firstn n l) -> firstn n l = firstn n (drop dec k l).
  Proof.
    induction l as [|y l IH]; intros n I; [reflexivity|]. destruct n as [|n]; [reflexivity|]. cbn [firstn drop] in *. destruct (dec y k) as [->|D]; [exfalso; apply I; left; reflexivity|]. cbn [firstn]. f_equal. apply IH. intros X. apply I. right. exact X.
  Qed.
  Lemma pick_keys m r a : forall c : list (entry A V), stored m c -> NoDup (keys m c) ->
    match pick hash same arg_eqb m r a c with
    | Some (e, os) => In (m r, a) (keys m c) /\ (m (en_ref e), en_arg e) = (m r, a) /\ keys m os = drop dec (m r, a) (keys m c)
    | None => ~ In (m r, a) (keys m c)
    end.
  Proof.
    induction c as [|x c IH]; intros S N; cbn [pick keys map]; [auto|]. cbn [keys map] in N. inversion N; subst. assert (HX := hit_iff m r a x (S x (or_introl eq_refl))). fold (keys m c) in *. destruct (hit hash same arg_eqb m r a x) eqn:E.
    - assert (X : (m (en_ref x), en_arg x) = (m r, a)) by (apply HX; reflexivity). split; [left; exact X|]. split; [exact X|]. cbn [drop]. destruct (dec _ _) as [_|D]; [|contradiction]. rewrite X in H1. symmetry. apply drop_absent, H1.
    - assert (X : (m (en_ref x), en_arg x) <> (m r, a)) by (intros Y; apply HX in Y; discriminate). specialize (IH (fun e I => S e (or_intror I)) H2). destruct (pick hash same arg_eqb m r a c) as [[y os]|].
      + destruct IH as (I1 & I2 & I3). split; [right; exact I1|]. split; [exact I2|]. cbn [keys map drop]. destruct (dec _ _) as [Y|_]; [contradiction|]. f_equal. exact I3.
      + intros [Y|Y]; [contradiction|exact (IH Y)].
  Qed.
  Lemma call_keys m c r a L c' v b : (1 <= maxsize)%nat -> (forall s x, exists w, f s x = Ok w) -> stored m c -> NoDup L -> keys m c = firstn maxsize L -> call m c r a = (c', v, b) ->
    stored m c' /\ keys m c' = firstn maxsize ((m r, a) :: drop dec (m r, a) L) /\ (b = false <-> In (m r, a) (firstn maxsize L)).
  Proof.
    intros MS T S NL K E. assert (NK : NoDup (keys m c)). { rewrite K. clear -NL. revert maxsize. induction NL as [|x l X N IH]; intros [|n]; cbn; try constructor; [intros I; apply X, (firstn_in _ _ _ I)|apply IH]. }
    assert (P := pick_keys m r a c S NK). destruct maxsize as [|n] eqn:En; [lia|]. unfold lru_call in E. destruct (pick hash same arg_eqb m r a c) as [[e os]|] eqn:Pk.
    - destruct P as (I & Ke & Ko). injection E as <- <- <-. split; [|split].
      + destruct (pick_some _ _ _ _ _ _ _ _ _ Pk) as (_ & Ie & Io). intros x [<-|X]; auto.
      + cbn [keys map firstn]. rewrite Ke. f_equal. fold (keys m os). rewrite Ko, K. rewrite K in I. symmetry. apply firstn_drop_in; assumption.
      + rewrite <- K. tauto.
    - destruct (T (m r) a) as (w & W). rewrite W in E. injection E as <- <- <-. split; [|split].
      + intros x X. destruct X as [<-|X]; [reflexivity|]. apply firstn_in in X. auto.
      + unfold keys in *. cbn [firstn map]. f_equal. rewrite <- firstn_map. rewrite K. rewrite firstn_firstn, Nat.min_l by lia. apply firstn_drop_out. intros I. apply P. unfold keys. rewrite K. clear -I. revert n I. induction L as [|y L IH]; intros [|n] I; try destruct I; [left; exact H|right; exact (IH n H)].
      + rewrite <- K. split; [discriminate|]. intros I. contradiction.
  Qed.
  (** Calls on instances that are not changed *)
  Lemma run_keys m ks : forall c L, (1 <= maxsize)%nat -> (forall s x, exists w, f s x = Ok w) -> stored m c -> NoDup L -> keys m c = firstn maxsize L ->
    forall i r a, nth_error ks i = Some (r, a) -> exists v b, nth_error (fst (run m c (map (fun k => Ask (fst k) (snd k)) ks))) i = Some (v, b) /\
    (b = false <-> In (m r, a) (firstn maxsize (by_use dec (map (fun k => (m (fst k), snd k)) (firstn i ks)) L))).
  Proof.
    induction ks as [|[q x] ks IH]; intros c L MS T S N K i r a E; [destruct i; discriminate|]. cbn [map lru_run fst snd]. destruct (call m c q x) as [[c' v] b] eqn:C.
    destruct (call_keys m c q x L c' v b MS T S N K C) as (S' & K' & B). destruct (run m c' (map (fun k => Ask (fst k) (snd k)) ks)) as [out c''] eqn:R. cbn [fst]. destruct i as [|i].
    - cbn in E. injection E as <- <-. exists v, b. cbn. auto.
    - cbn [nth_error] in *. assert (N' : NoDup ((m q, x) :: drop dec (m q, x) L)) by (constructor; [intros I; apply drop_in in I; tauto|apply drop_nodup, N]). destruct (IH c' _ MS T S' N' K' i r a E) as (w & d & W & D). rewrite R in W. exists w, d. split; [exact W|]. exact D.
  Qed.
End Lru.

(** ** Comparison *)
Lemma vector_eq_iff a b : vector_eqb a b = true <-> a = b.
Proof.
  unfold vector_eqb. destruct a as [t p m], b as [t' p' m']. cbn. destruct (Req_EM_T t t') as [->|], (Req_EM_T p p') as [->|], (Req_EM_T m m') as [->|]; split; intros E; try discriminate; try reflexivity; injection E; intros; contradiction.
Qed.
Lemma base_iff a b : layer_base_eqb a b = true <-> same_fields a b.
Proof.
  unfold layer_base_eqb, same_fields. rewrite !Bool.andb_true_iff, Nat.eqb_eq, vector_eq_iff. destruct (Req_EM_T (sb_thickness a) (sb_thickness b)), (Req_EM_T (sb_Ks a) (sb_Ks b)), (Req_EM_T (sb_Ms a) (sb_Ms b)); intuition discriminate.
Qed.
Lemma layer_eq_iff a b t : layer_eq a b = Ok t <->
  match sb_dyn a, sb_dyn b with
  | None, None => t = true <-> same_fields a b
  | Some x, Some y => t = true <-> same_fields a b /\ dy_alpha x = dy_alpha y
  | _, _ => ~ same_fields a b /\ t = false
  end.
Proof.
  assert (BI := base_iff a b). unfold layer_eq. destruct (sb_dyn a) as [x|], (sb_dyn b) as [y|]; destruct (layer_base_eqb a b) eqn:B.
  - destruct (Req_EM_T (dy_alpha x) (dy_alpha y)) as [E|E]; cbn; split; intros H; try (injection H as <-); try (split; intros; tauto || discriminate); destruct t; try reflexivity; exfalso; intuition discriminate.
  - cbn. split; intros H; [injection H as <-; split; [discriminate|tauto]|]. destruct t; [exfalso; intuition discriminate|reflexivity].
  - split; [discriminate|]. intros [H _]. exfalso. apply H, BI. reflexivity.
  - split; intros H; [injection H as <-; split; [|reflexivity]; intros X; apply BI in X; discriminate|destruct H as [_ ->]; reflexivity].
  - split; [discriminate|]. intros [H _]. exfalso. apply H, BI. reflexivity.
  - split; intros H; [injection H as <-; split; [|reflexivity]; intros X; apply BI in X; discriminate|destruct H as [_ ->]; reflexivity].
  - split; intros H; [injection H as <-; exact BI|]. destruct t; [reflexivity|exfalso; intuition discriminate].
  - split; intros H; [injection H as <-; exact BI|]. destruct t; [exfalso; intuition discriminate|reflexivity].
Qed.
Lemma energy_cached (key : solver -> option svec * bool -> Z) : (forall s s' a, key s a = key s' a -> s = s') -> hash_decides key (fun s a => create_energy s (fst a) (snd a)).
Proof. intros I s s' a v K E. rewrite <- (I s s' a K). exact E. Qed.
(** Two layers that compare equal and differ in their demagnetisation *)
Definition film : layerSB := LayerSB 0 1 (VO 0 0 0) 0 1 None (VO 0 0 1) None.
Definition free : layerSB := LayerSB 0 1 (VO 0 0 0) 0 1 None (VO 0 0 0) None.
Lemma equal_layers_differ : layer_eq film free = Ok true /\ eval (fun _ => 0) (no_interaction_symbolic_energy film (SV (ENum 0) (ENum 0) (ENum 0))) - eval (fun _ => 0) (no_interaction_symbolic_energy free (SV (ENum 0) (ENum 0) (ENum 0))) = mu0 / 2.
Proof.
  split; [apply layer_eq_iff; cbn; split; [intros _; unfold same_fields; auto|reflexivity]|].
  unfold no_interaction_symbolic_energy, sb_m, sb_hdmi, cart, get_cartesian, from_spherical, film, free, sdot, ESq. cbn. rewrite ?sin_0, ?cos_0. field.
Qed.
Definition torqued (t : R) : layerSB := LayerSB 0 1 (VO 0 0 0) 0 1 None (VO 0 0 1) (Some (Dynamics (1 / 100) t 0)).
Lemma equal_torques_differ : layer_eq (torqued 0) (torqued 1) = Ok true /\ exists d e, sb_dyn (torqued 0) = Some d /\ sb_dyn (torqued 1) = Some e /\
  eval (fun _ => 0) (snd (torque (torqued 1) e false)) - eval (fun _ => 0) (snd (torque (torqued 0) d false)) = 1 / 100.
Proof.
  split; [apply layer_eq_iff; cbn; split; [intros _; unfold same_fields; auto 8|reflexivity]|]. exists (Dynamics (1 / 100) 0 0), (Dynamics (1 / 100) 1 0). split; [reflexivity|]. split; [reflexivity|]. unfold torque. cbn. field.
Qed.
