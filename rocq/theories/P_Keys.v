(** Column names never collide. *)
From Verif Require Export P_Run.
From Coq Require Import Ascii.
Open Scope R_scope.

Fixpoint us (s : string) : nat :=
  match s with EmptyString => 0 | String c t => (if Ascii.eqb c "_"%char then 1 else 0) + us t end.
Lemma us_app a b : us (a ++ b) = (us a + us b)%nat.
Proof. induction a; cbn; [reflexivity|]. rewrite IHa. lia. Qed.
Lemma us_colname id T : us (colname id T) = (us id + 1 + us T)%nat.
Proof. unfold colname. rewrite !us_app. cbn. lia. Qed.
Lemma sapp_assoc a b c : ((a ++ b) ++ c = a ++ b ++ c)%string.
Proof. induction a; cbn; congruence. Qed.
Lemma colname_app id T c : (colname id T ++ c = colname id (T ++ c))%string.
Proof. unfold colname. rewrite !sapp_assoc. reflexivity. Qed.
Lemma colname_inj id1 id2 T1 T2 : us T1 = 0%nat -> us T2 = 0%nat -> colname id1 T1 = colname id2 T2 -> id1 = id2 /\ T1 = T2.
Proof.
  intros H1 H2. unfold colname. revert id2. induction id1 as [|c id1 IH]; intros [|d id2] E.
  - cbn in E. injection E as ->. auto.
  - cbn in E. injection E as <- E. exfalso. assert (X := f_equal us E). rewrite us_app in X. cbn in X. lia.
  - cbn in E. injection E as -> E. exfalso. assert (X := f_equal us E). rewrite us_app in X. cbn in X. lia.
  - cbn in E. injection E as <- E. apply IH in E. destruct E as [-> ->]. auto.
Qed.

(** ** Values of a row *)
Lemma values_app key a b : values key (a ++ b) = (values key a ++ values key b)%list.
Proof. unfold values. rewrite filter_app, map_app. reflexivity. Qed.
Lemma values_none key row : ~ In key (map fst row) -> values key row = [].
Proof.
  induction row as [|[k v] row IH]; intros H; [reflexivity|]. unfold values in *. cbn [filter fst].
  destruct (String.eqb_spec k key) as [E|E]; [exfalso; apply H; left; exact E|]. apply IH. intros X. apply H. right. exact X.
Qed.
(** The tags of one layer. *)
Definition vtag (tag : string) (v : cvec) : list (string * R) :=
  [(tag ++ "x", cx v); (tag ++ "y", cy v); (tag ++ "z", cz v)]%string.
Definition tag_row (e : bool) (l : layer) : list (string * R) :=
  let c := l_cache l in
  ((if e then
   [("K"%string, c_K_log c); ("Jbottom"%string, c_Jbottom_log c); ("Jtop"%string, c_Jtop_log c); ("I"%string, c_I_log c)] ++
   vtag "Hext" (c_Hext c) ++ vtag "Hiec" (c_HIEC c) ++ vtag "Hanis" (c_HAnis c) ++ vtag "Hdemag" (c_Hdemag c) ++
   vtag "Hth" (c_Hfluctuation c) ++
   (if l_includeSOT l then vtag "Hfl" (c_Hfl_v c) ++ vtag "Hdl" (c_Hdl_v c) else []) ++
   (if l_includeSTT l || l_includeSOT l then [("I"%string, c_I_log c)] else []) else []) ++ vtag "m" (l_mag l))%list.
Lemma layer_row_tags e l : layer_row e l = map (fun kv => (colname (l_id l) (fst kv), snd kv)) (tag_row e l).
Proof.
  unfold layer_row, tag_row, energies_row, vec_row. rewrite !colname_app.
  destruct e, (l_includeSOT l), (l_includeSTT l); cbn [orb app map vtag fst snd append]; rewrite ?colname_app; reflexivity.
Qed.
Definition nous (row : list (string * R)) : Prop := forall k v, In (k, v) row -> us k = 0%nat.
Lemma tag_row_nous e l : nous (tag_row e l).
Proof.
  intros k v H. unfold tag_row in H.
  destruct e, (l_includeSOT l), (l_includeSTT l); cbn [orb app vtag append In] in H;
  repeat (destruct H as [H|H]; [injection H as <- <-; reflexivity|]); destruct H.
Qed.
Lemma values_tagged id key T row : us T = 0%nat -> nous row -> key = colname id T ->
  values key (map (fun kv => (colname id (fst kv), snd kv)) row) = values T row.
Proof.
  intros HT HN ->. induction row as [|[k v] row IH]; [reflexivity|]. unfold values in *. cbn [map filter fst snd].
  assert (HN' : nous row) by (intros a b Hab; apply (HN a b); right; exact Hab).
  destruct (String.eqb_spec (colname id k) (colname id T)) as [E|E], (String.eqb_spec k T) as [E'|E'].
  - cbn [map snd]. f_equal. apply IH, HN'.
  - exfalso. apply colname_inj in E; [destruct E; contradiction|apply (HN k v); left; reflexivity|exact HT].
  - subst. contradiction.
  - apply IH, HN'.
Qed.
Lemma values_other id id' T row : us T = 0%nat -> nous row -> id <> id' ->
  values (colname id' T) (map (fun kv => (colname id (fst kv), snd kv)) row) = [].
Proof.
  intros HT HN Hd. apply values_none. rewrite map_map. cbn [fst]. intros H. apply in_map_iff in H.
  destruct H as ([k v] & E & Hin). cbn [fst] in E. apply colname_inj in E; [destruct E; contradiction|apply (HN k v Hin)|exact HT].
Qed.
Lemma values_layers e ls p l T : NoDup (map l_id ls) -> nth_error ls p = Some l -> us T = 0%nat ->
  values (colname (l_id l) T) (flat_map (layer_row e) ls) = values T (tag_row e l).
Proof.
  revert p. induction ls as [|k ls IH]; intros p HN Hp HT; [destruct p; discriminate|].
  cbn [flat_map]. rewrite values_app, layer_row_tags. cbn [map] in HN. inversion HN as [|? ? Hni HN']; subst.
  destruct p as [|p]; cbn in Hp.
  - injection Hp as ->. rewrite (values_tagged _ _ T); [|exact HT|apply tag_row_nous|reflexivity].
    assert (E : values (colname (l_id l) T) (flat_map (layer_row e) ls) = []).
    { clear IH HN'. induction ls as [|m ls IH]; [reflexivity|]. cbn [flat_map]. rewrite values_app, layer_row_tags.
      rewrite values_other; [|exact HT|apply tag_row_nous|intros X; apply Hni; left; exact X].
      apply IH; [|intros X; apply Hni; right; exact X]. inversion HN; subst.
      inversion H2; subst. constructor; [|assumption]. intros X. apply Hni. right. exact X. }
    rewrite E, app_nil_r. reflexivity.
  - rewrite values_other; [|exact HT|apply tag_row_nous|].
    + apply (IH p); assumption.
    + intros E. apply Hni. rewrite E. apply in_map. eapply nth_error_In. exact Hp.
Qed.
Lemma layers_keys_us e ls key : In key (map fst (flat_map (layer_row e) ls)) -> exists l T, In l ls /\ us T = 0%nat /\ key = colname (l_id l) T.
Proof.
  intros H. apply in_map_iff in H. destruct H as ([k v] & <- & H). apply in_flat_map in H. destruct H as (l & Hl & H).
  rewrite layer_row_tags in H. apply in_map_iff in H. destruct H as ([T x] & E & H). injection E as <- <-.
  exists l, T. split; [exact Hl|]. split; [apply (tag_row_nous e l T x H)|reflexivity].
Qed.
Lemma layers_no_plain e ls key : us key = 0%nat -> values key (flat_map (layer_row e) ls) = [].
Proof.
  intros H. apply values_none. intros X. apply layers_keys_us in X. destruct X as (l & T & _ & _ & ->).
  rewrite us_colname in H. lia.
Qed.
Lemma Rtag_us j l0 l1 rest : tag_ok j -> j_mode j = MR_CLASSIC -> j_layers j = l0 :: l1 :: rest ->
  us (j_Rtag j) = (2 + us (l_id l0) + us (l_id l1))%nat.
Proof. unfold tag_ok. intros H M E. rewrite E in H. rewrite (H M), !us_app. cbn. lia. Qed.
(** Underscore count of any resistance key. *)
Lemma resistance_keys j rr : resistance_row j rr -> map fst rr =
  match j_mode j, j_layers j with
  | MR_CLASSIC, [_] => ["R"%string]
  | MR_CLASSIC, _ :: _ :: _ => [j_Rtag j]
  | MR_STRIP, _ => ["Rx"; "Ry"; "Rz"]%string
  | _, _ => []
  end.
Proof.
  unfold resistance_row. destruct (j_mode j); [intros ->; reflexivity| |intros (rx & ry & _ & _ & ->); reflexivity].
  destruct (j_layers j) as [|l0 [|l1 rest]]; intros ->; reflexivity.
Qed.
Lemma layer_key_not_resistance j rr l T : tag_ok j -> classic_two j -> In l (j_layers j) -> us T = 0%nat -> resistance_row j rr ->
  ~ In (colname (l_id l) T) (map fst rr).
Proof.
  intros Ht H2 Hl HT Hr. rewrite (resistance_keys _ _ Hr). intros X.
  assert (U := us_colname (l_id l) T). unfold classic_two, layerNo in H2.
  destruct (j_mode j) eqn:EM.
  - destruct X.
  - specialize (H2 eq_refl). destruct (j_layers j) as [|l0 [|l1 [|l2 rest]]] eqn:EL; cbn in H2; try lia.
    + destruct X.
    + destruct X as [X|[]]. rewrite <- X in U. cbn in U. lia.
    + assert (V := Rtag_us j l0 l1 [] Ht EM EL). destruct X as [X|[]]. rewrite <- X in U.
      destruct Hl as [<-|[<-|[]]]; lia.
  - destruct X as [X|[X|[X|[]]]]; rewrite <- X in U; cbn in U; lia.
Qed.
Lemma time_not_resistance j rr : tag_ok j -> classic_two j -> resistance_row j rr -> ~ In "time"%string (map fst rr).
Proof.
  intros Ht H2 Hr. rewrite (resistance_keys _ _ Hr). intros X. destruct (j_mode j) eqn:EM.
  - destruct X.
  - destruct (j_layers j) as [|l0 [|l1 rest]] eqn:EL.
    + destruct X.
    + destruct X as [X|[]]; discriminate.
    + assert (V := Rtag_us j l0 l1 rest Ht EM EL). destruct X as [X|[]]. rewrite X in V. cbn in V. lia.
  - destruct X as [X|[X|[X|[]]]]; discriminate.
Qed.
Lemma values_time e j t row : tag_ok j -> classic_two j -> log_row e j t row -> values "time" row = [t].
Proof.
  intros H1 H2 (rr & Hr & ->). rewrite !values_app, layers_no_plain by reflexivity.
  rewrite (values_none _ rr) by (eapply time_not_resistance; eassumption). reflexivity.
Qed.
Lemma values_layer e j t row p l T : tag_ok j -> classic_two j -> NoDup (ids j) -> nth_error (j_layers j) p = Some l -> us T = 0%nat ->
  log_row e j t row -> values (colname (l_id l) T) row = values T (tag_row e l).
Proof.
  intros H1 H2 HN Hp HT (rr & Hr & ->). rewrite !values_app. rewrite (values_layers e _ p l T HN Hp HT).
  rewrite (values_none _ rr) by (eapply layer_key_not_resistance; try eassumption; eapply nth_error_In; exact Hp).
  rewrite (values_none _ [_]), !app_nil_r; [reflexivity|]. intros [X|[]]. cbn in X. assert (U := us_colname (l_id l) T). rewrite <- X in U. cbn in U. lia.
Qed.
(** What each column of a layer gains from one row. *)
Lemma values_m e l : values "mx" (tag_row e l) = [cx (l_mag l)] /\ values "my" (tag_row e l) = [cy (l_mag l)] /\
  values "mz" (tag_row e l) = [cz (l_mag l)].
Proof. unfold tag_row. destruct e, (l_includeSOT l), (l_includeSTT l); repeat split; reflexivity. Qed.

(** ** Row keys without energies *)
Lemma NoDup_app_intro {A} (a b : list A) : NoDup a -> NoDup b -> (forall x, In x a -> In x b -> False) -> NoDup (a ++ b).
Proof.
  intros Ha Hb H. induction Ha as [|x a Hx Ha IH]; [exact Hb|]. cbn. constructor.
  - intros X. apply in_app_or in X. destruct X as [X|X]; [contradiction|]. apply (H x); [left; reflexivity|exact X].
  - apply IH. intros y Hy. apply H. right. exact Hy.
Qed.
Lemma row_keys_of e j t row : e = false -> log_row e j t row -> map fst row = row_keys j.
Proof.
  intros -> (rr & Hr & ->). unfold row_keys. rewrite !map_app, (resistance_keys _ _ Hr). f_equal.
  induction (j_layers j) as [|l ls IH]; [reflexivity|]. cbn [flat_map]. rewrite map_app, IH. f_equal.
  rewrite layer_row_tags. reflexivity.
Qed.
Lemma mkeys_colname ls key : In key (flat_map (fun l => [colname (l_id l) "mx"; colname (l_id l) "my"; colname (l_id l) "mz"]%string) ls) ->
  exists l T, In l ls /\ us T = 0%nat /\ key = colname (l_id l) T.
Proof.
  intros H. apply in_flat_map in H. destruct H as (l & Hl & [H|[H|[H|[]]]]); subst; exists l; eexists; (split; [exact Hl|split; [|reflexivity]]); reflexivity.
Qed.
Lemma mkeys_nodup ls : NoDup (map l_id ls) -> NoDup (flat_map (fun l => [colname (l_id l) "mx"; colname (l_id l) "my"; colname (l_id l) "mz"]%string) ls).
Proof.
  induction ls as [|l ls IH]; intros H; [constructor|]. cbn [flat_map]. cbn in H. inversion H as [|? ? Hni HN]; subst.
  apply NoDup_app_intro.
  - assert (D : forall T T', us T = 0%nat -> us T' = 0%nat -> T <> T' -> colname (l_id l) T <> colname (l_id l) T').
    { intros T T' A B C E. apply colname_inj in E; tauto. }
    repeat constructor; cbn [In]; intros X;
    repeat (destruct X as [X|X]; [apply D in X; [exact X|reflexivity|reflexivity|discriminate]|]); exact X.
  - apply IH, HN.
  - intros x Hx Hx'. apply mkeys_colname in Hx'. destruct Hx' as (k & T & Hk & HT & ->).
    assert (E : exists T', us T' = 0%nat /\ colname (l_id k) T = colname (l_id l) T').
    { destruct Hx as [X|[X|[X|[]]]]; rewrite <- X; eexists; (split; [|reflexivity]); reflexivity. }
    destruct E as (T' & HT' & E). apply colname_inj in E; [|assumption|assumption]. destruct E as [E _].
    apply Hni. rewrite <- E. apply in_map. exact Hk.
Qed.
Lemma row_keys_nodup j : tag_ok j -> classic_two j -> NoDup (ids j) -> NoDup (row_keys j).
Proof.
  intros Ht H2 HN. unfold row_keys. apply NoDup_app_intro.
  - apply mkeys_nodup. exact HN.
  - destruct (j_mode j) eqn:EM; [repeat constructor; intros []| |repeat constructor; cbn; intuition discriminate].
    destruct (j_layers j) as [|l0 [|l1 rest]] eqn:EL; [repeat constructor; intros []|repeat constructor; cbn; intuition discriminate|].
    assert (V := Rtag_us j l0 l1 rest Ht EM EL). repeat constructor; cbn [In app].
    + intros [X|[]]. rewrite <- X in V. cbn in V. lia.
    + intros [].
  - intros x Hx Hx'. apply mkeys_colname in Hx. destruct Hx as (l & T & Hl & HT & ->).
    assert (U := us_colname (l_id l) T). apply in_app_or in Hx'. destruct Hx' as [X|[X|[]]]; [|rewrite <- X in U; cbn in U; lia].
    unfold classic_two, layerNo in H2. destruct (j_mode j) eqn:EM.
    + destruct X.
    + specialize (H2 eq_refl). destruct (j_layers j) as [|l0 [|l1 [|l2 rest]]] eqn:EL; cbn in H2; try lia.
      * destruct X.
      * destruct X as [X|[]]. rewrite <- X in U. cbn in U. lia.
      * assert (V := Rtag_us j l0 l1 [] Ht EM EL). destruct X as [X|[]]. rewrite <- X in U. destruct Hl as [<-|[<-|[]]]; lia.
    + destruct X as [X|[X|[X|[]]]]; rewrite <- X in U; cbn in U; lia.
Qed.
Lemma values_length_nodup key row : NoDup (map fst row) -> length (values key row) = if in_dec string_dec key (map fst row) then 1%nat else 0%nat.
Proof.
  induction row as [|[k v] row IH]; intros HN; [reflexivity|]. cbn [map fst] in HN. inversion HN as [|? ? Hni HN']; subst.
  specialize (IH HN'). unfold values in *. cbn [filter fst map].
  destruct (String.eqb_spec k key) as [E|E].
  - subst. cbn [map length]. rewrite IH. destruct (in_dec string_dec key (map fst row)) as [X|X]; [contradiction|].
    destruct (in_dec string_dec key (key :: map fst row)) as [_|Y]; [reflexivity|]. exfalso. apply Y. left. reflexivity.
  - rewrite IH. destruct (in_dec string_dec key (map fst row)) as [X|X], (in_dec string_dec key (k :: map fst row)) as [Y|Y]; try reflexivity.
    + exfalso. apply Y. right. exact X.
    + exfalso. destruct Y; contradiction.
Qed.
