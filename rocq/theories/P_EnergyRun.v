(** EnergyCompute on the log of a run. *)
From Verif Require Export P_Energy P_Cache.
From Coq Require Import String Ascii List Permutation.
Open Scope R_scope.
Open Scope st_scope.

Lemma run_rows_w T dt wf e mode j j' : runSimulation T dt wf e mode j = (j', Ok tt) ->
  exists N w r used s rows, step_counts T dt wf N w /\ selects mode N j (s 0%nat) r used /\ trajectory r dt s N /\ (N = 0%nat \/ (w > 0)%nat) /\
    rows_of e dt s N w rows /\ j_log j' = push_rows rows (j_log j).
Proof.
  unfold runSimulation, step_counts. destruct (Rlt_dec wf dt) as [H|H]; [discriminate|]. intros E.
  apply bind_inv in E. destruct E as (j1 & q1 & E1 & E). apply lift_inv in E1. destruct E1 as [-> E1].
  apply bind_inv in E. destruct E as (j1 & N & E2 & E). apply lift_inv in E2. destruct E2 as [-> E2].
  apply bind_inv in E. destruct E as (j1 & q2 & E3 & E). apply lift_inv in E3. destruct E3 as [-> E3].
  apply bind_inv in E. destruct E as (j1 & w & E4 & E). apply lift_inv in E4. destruct E4 as [-> E4].
  apply bind_inv in E. destruct E as (j0 & [r used] & E5 & E). cbn [fst] in E.
  apply fdiv_inv in E1, E3. destruct E1 as [Hd ->]. destruct E3 as [_ ->].
  apply to_unsigned_iff in E2, E4. apply getSolver_iff in E5.
  apply sim_sound in E. destruct E as (s & rows & Hs0 & Hst & Hw & HF & Hj').
  exists N, w, r, used, s, rows. split.
  { split; [lra|]. split; [exact Hd|]. split; [apply E2|]. split; [apply E4|]. split; [apply E2|apply E4]. }
  rewrite Hs0. split; [exact E5|]. split; [exact Hst|]. split; [exact Hw|]. split.
  - destruct Hw as [->|Hw].
    + inversion HF; subst. split.
      * unfold rows_needed. cbn [length]. destruct w; [reflexivity|]. symmetry. apply Nat.div_small. lia.
      * intros [|k]; discriminate.
    + apply rows_of_iff; [exact Hw|exact HF].
  - destruct E5 as (_ & E5 & _). assert (X : j_log j0 = j_log j) by (rewrite E5; reflexivity). rewrite Hj', X. reflexivity.
Qed.

(** ** Strings with one or two underscores *)
Lemma infix_col q id T : us q = 0%nat -> us id = 0%nat -> us T = 0%nat -> Infix ("_" ++ q) (colname id T) -> Starts q T.
Proof.
  intros Hq Hid HT (a & b & E). assert (E' : colname id T = colname a (q ++ b)) by (rewrite E; unfold colname; rewrite ?sapp_assoc; reflexivity).
  assert (U := f_equal us E'). rewrite !us_colname, us_app in U. apply colname_inj in E'; [|exact HT|rewrite us_app; lia]. exists b. apply E'.
Qed.
Lemma starts_app q a b : us q = 0%nat -> Starts q (colname a b) -> Starts q a.
Proof.
  revert a. induction q as [|c q IH]; intros a Hq (r & E); [exists a; reflexivity|].
  destruct a as [|d a].
  - unfold colname in E. cbn in E. injection E as <- _. cbn in Hq. lia.
  - unfold colname in E. cbn in E. injection E as <- E. cbn in Hq. destruct (IH a) as (r' & ->); [destruct (Ascii.eqb d "_"); lia|exists r; exact E|]. exists r'. reflexivity.
Qed.
Lemma first_word_fun k p q : first_word k p -> first_word k q -> p = q.
Proof. rewrite <- !before_underscore_iff. congruence. Qed.
Lemma infix_tag q a b : us q = 0%nat -> us a = 0%nat -> us b = 0%nat -> Infix ("_" ++ q) ("R_" ++ a ++ "_" ++ b) -> Starts q a \/ Starts q b.
Proof.
  intros Hq Ha Hb (x & y & E). assert (E' : colname "R" (colname a b) = colname x (q ++ y)) by (unfold colname; cbn in *; rewrite <- ?sapp_assoc in *; rewrite E; rewrite ?sapp_assoc; reflexivity).
  assert (U := f_equal us E'). rewrite !us_colname, us_app in U. cbn in U. assert (us x = 0 /\ us y = 1 \/ us x = 1 /\ us y = 0)%nat as [(Hx & Hy)|(Hx & Hy)] by lia.
  - left. assert (F1 : first_word (colname "R" (colname a b)) "R") by (split; [apply plain_us; reflexivity|right; exists (colname a b); reflexivity]).
    assert (F2 : first_word (colname "R" (colname a b)) x) by (split; [apply plain_us; exact Hx|right; exists (q ++ y)%string; exact E']).
    pose proof (first_word_fun _ _ _ F1 F2) as <-. unfold colname at 1 3 in E'. cbn in E'. injection E' as E'. apply (starts_app q a b Hq). exists y. exact E'.
  - right. assert (E2 : colname (colname "R" a) b = colname x (q ++ y)) by (rewrite <- E'; unfold colname; rewrite ?sapp_assoc; reflexivity).
    apply colname_inj in E2; [|exact Hb|rewrite us_app; lia]. exists y. apply E2.
Qed.
Lemma infix_J id T : us id = 0%nat -> us T = 0%nat -> Infix "J_" (colname id T) <-> Ends "J" id.
Proof.
  intros Hid HT. split.
  - intros (a & b & E). assert (E' : colname id T = colname (a ++ "J") b) by (rewrite E; unfold colname; rewrite ?sapp_assoc; reflexivity).
    assert (U := f_equal us E'). rewrite !us_colname, us_app in U. apply colname_inj in E'; [|exact HT|cbn in U; lia]. exists a. apply E'.
  - intros (a & ->). exists a, T. unfold colname. rewrite sapp_assoc. reflexivity.
Qed.
Lemma infix_none sub s : us s = 0%nat -> Infix ("_" ++ sub) s -> False.
Proof. intros H (a & b & ->). rewrite !us_app in H. cbn in H. lia. Qed.
Lemma erased_mx id : us id = 0%nat -> Erased (colname id "mx") id.
Proof.
  induction id as [|c id IH]; intros H.
  - apply (Erased_mx ""). constructor.
  - cbn in H. unfold colname in *. cbn [append] in *. constructor; [|apply IH; destruct (Ascii.eqb c "_"); lia]. intros (r & E). injection E as -> _. cbn in H. lia.
Qed.

(** ** Tags of a layer *)
Lemma mag_tag e l T : In T (map fst (tag_row e l)) -> Starts "mx" T -> T = "mx"%string.
Proof.
  intros H (r & ->). unfold tag_row in H. destruct e, (l_includeSOT l), (l_includeSTT l); cbn [orb app vtag append In map fst] in H;
  repeat (destruct H as [H|H]; [try discriminate H; try (symmetry; exact H)|]); destruct H.
Qed.
Lemma field_tags l T : In T (map fst (tag_row true l)) -> Starts "H" T -> exists tag h c, field_tag (l_includeSOT l) tag h /\ T = (tag ++ String c "")%string.
Proof.
  intros H (r & E). unfold tag_row in H. destruct (l_includeSOT l) eqn:SO.
  - destruct (l_includeSTT l); cbn [orb app vtag append In map fst] in H;
    repeat (destruct H as [H|H]; [first [exfalso; rewrite <- H in E; discriminate E
      | rewrite <- H; first [eexists _, _, _; split; [apply tag_ext|reflexivity] | eexists _, _, _; split; [apply tag_iec|reflexivity] | eexists _, _, _; split; [apply tag_anis|reflexivity] | eexists _, _, _; split; [apply tag_demag|reflexivity] | eexists _, _, _; split; [apply tag_th|reflexivity] | eexists _, _, _; split; [apply (tag_fl _ eq_refl)|reflexivity] | eexists _, _, _; split; [apply (tag_dl _ eq_refl)|reflexivity]]]|]); destruct H.
  - destruct (l_includeSTT l); cbn [orb app vtag append In map fst] in H;
    repeat (destruct H as [H|H]; [first [exfalso; rewrite <- H in E; discriminate E
      | rewrite <- H; first [eexists _, _, _; split; [apply tag_ext|reflexivity] | eexists _, _, _; split; [apply tag_iec|reflexivity] | eexists _, _, _; split; [apply tag_anis|reflexivity] | eexists _, _, _; split; [apply tag_demag|reflexivity] | eexists _, _, _; split; [apply tag_th|reflexivity]]]|]); destruct H.
Qed.
Lemma field_tag_values l tag h : field_tag (l_includeSOT l) tag h ->
  (forall c, us (tag ++ String c "") = us (String c "")) /\ us tag = 0%nat /\ Starts "H" tag /\
  values (tag ++ "x") (tag_row true l) = [cx (h (l_cache l))] /\ values (tag ++ "y") (tag_row true l) = [cy (h (l_cache l))] /\ values (tag ++ "z") (tag_row true l) = [cz (h (l_cache l))].
Proof.
  intros H. unfold tag_row. inversion H; subst; (split; [intros c; reflexivity|]); (split; [reflexivity|]); (split; [eexists; reflexivity|]);
  destruct (l_includeSOT l), (l_includeSTT l); try discriminate; repeat split; reflexivity.
Qed.

(** ** Keys and columns of a fresh log *)
Lemma keys_push_rows rows : forall g k, In k (keys (push_rows rows g)) <-> In k (keys g) \/ exists row, In row rows /\ In k (map fst row).
Proof.
  assert (PA : forall row g k, In k (map fst (push_all row g)) <-> In k (map fst g) \/ In k (map fst row)).
  { induction row as [|[k0 v] row IH]; intros g k; [cbn; tauto|]. unfold push_all in *. cbn [fold_left fst snd map In]. rewrite IH, push_keys. intuition congruence. }
  unfold keys. induction rows as [|row rows IH]; intros g k; cbn [push_rows fold_left].
  - split; [auto|intros [H|(r & [] & _)]; exact H].
  - fold (push_rows rows (push_all row g)). rewrite IH, PA. split.
    + intros [[H|H]|(r & H1 & H2)]; [left; exact H|right; exists row; split; [left; reflexivity|exact H]|right; exists r; split; [right; exact H1|exact H2]].
    + intros [H|(r & [<-|H1] & H2)]; [left; left; exact H|left; right; exact H2|right; exists r; split; assumption].
Qed.
Lemma row_key_cases e j t row k : log_row e j t row -> In k (map fst row) ->
  (exists l T, In l (j_layers j) /\ In T (map fst (tag_row e l)) /\ us T = 0%nat /\ k = colname (l_id l) T) \/
  (us k = 0%nat) \/ (j_mode j = MR_CLASSIC /\ (1 < length (j_layers j))%nat /\ k = j_Rtag j).
Proof.
  intros (rr & Hr & ->) H. rewrite !map_app, !in_app_iff in H. destruct H as [H|[H|H]].
  - left. apply in_map_iff in H. destruct H as ([k' v] & <- & H). apply in_flat_map in H. destruct H as (l & Hl & H).
    rewrite layer_row_tags in H. apply in_map_iff in H. destruct H as ([T x] & E & H). injection E as <- <-.
    exists l, T. split; [exact Hl|]. split; [exact (in_map fst _ _ H)|]. split; [apply (tag_row_nous e l T x H)|reflexivity].
  - right. rewrite (resistance_keys _ _ Hr) in H. destruct (j_mode j); [destruct H| |].
    + destruct (j_layers j) as [|l0 [|l1 rest]]; [destruct H|destruct H as [<-|[]]; left; reflexivity|]. destruct H as [<-|[]]. right. split; [reflexivity|]. split; [cbn; lia|reflexivity].
    + left. destruct H as [<-|[<-|[<-|[]]]]; reflexivity.
  - right. left. destruct H as [<-|[]]. reflexivity.
Qed.
Lemma values_in k row : values k row <> [] -> In k (map fst row).
Proof. intros H. destruct (in_dec string_dec k (map fst row)) as [X|X]; [exact X|]. apply values_none in X. contradiction. Qed.
Lemma energy_run S t T dt wf mode j j' : named j -> clear_ids j -> j_log j = [] -> S <> 0 -> t <> 0 ->
  runSimulation T dt wf true mode j = (j', Ok tt) ->
  exists N w r used s data, step_counts T dt wf N w /\ selects mode N j (s 0%nat) r used /\ trajectory r dt s N /\
    compute_from_log (EnergyCompute S t (j_log j')) = Ok data /\ NoDup (map fst data) /\
    forall k v, In (k, v) data <-> exists p l tag h A, nth_error (j_layers j) p = Some l /\ (0 < rows_needed N w)%nat /\ field_tag (l_includeSOT l) tag h /\
      k = ("energy_" ++ colname (l_id l) tag)%string /\ (Ends "J" (l_id l) /\ A = S \/ ~ Ends "J" (l_id l) /\ A = S * t) /\
      v = map (fun i => - Dot (l_mag (layer_at s p (Datatypes.S (i * w)) l)) (h (l_cache (layer_at s p (Datatypes.S (i * w)) l))) / A) (seq 0 (rows_needed N w)).
Proof.
  intros NM (PL & CL) EL ZS Zt E. destruct (run_rows_w _ _ _ _ _ _ _ E) as (N & w & r & used & s & rows & HC & HS & HT & Hw & (HR1 & HR2) & EG). rewrite EL in EG.
  set (n := rows_needed N w) in *.
  assert (HK : forall k, (k < n)%nat -> (Datatypes.S (k * w) <= N)%nat) by (intros k Hk; exact (row_in_run N w k Hw Hk)).
  assert (SH : forall k, (k < n)%nat -> shape j (s (Datatypes.S (k * w)))).
  { intros k Hk. eapply shape_trans; [exact (selects_shape _ _ _ _ _ _ HS)|]. apply stepwise_shape, (traj_static r dt s N); [exact HT|apply HK, Hk]. }
  assert (AT : forall p l k, nth_error (j_layers j) p = Some l -> (k < n)%nat ->
     nth_error (j_layers (s (Datatypes.S (k * w)))) p = Some (layer_at s p (Datatypes.S (k * w)) l) /\ l_id (layer_at s p (Datatypes.S (k * w)) l) = l_id l /\ l_includeSOT (layer_at s p (Datatypes.S (k * w)) l) = l_includeSOT l).
  { intros p l k Hl Hk. pose proof (layer_at_static mode N j (s 0%nat) r used dt s p l _ HS eq_refl HT Hl (HK k Hk)) as (A & B). split; [exact A|].
    destruct (static_fields _ _ B) as (X & _ & Y & _). destruct (prepared_fields l) as (_ & D & _). split; [rewrite X; apply prepared_id|congruence]. }
  set (g := j_log j') in *.
  assert (ROW : forall k, (k < n)%nat -> exists row, nth_error rows k = Some row /\ log_row true (s (Datatypes.S (k * w))) (INR (k * w) * dt) row).
  { intros k Hk. destruct (nth_error rows k) as [row|] eqn:ER; [exists row; split; [reflexivity|exact (HR2 k row ER)]|]. apply nth_error_None in ER. lia. }
  assert (COL : forall p l T f, nth_error (j_layers j) p = Some l -> us T = 0%nat -> (0 < n)%nat ->
     (forall k, (k < n)%nat -> values T (tag_row true (layer_at s p (Datatypes.S (k * w)) l)) = [f k]) -> log_get (colname (l_id l) T) g = Some (map f (seq 0 n))).
  { intros p l U f Hl HU P HV. rewrite EG. apply fresh_column; [exact HR1| |exact P]. intros k row Hrow.
    assert (Hk : (k < n)%nat) by (rewrite <- HR1; apply nth_error_Some; congruence). destruct (AT p l k Hl Hk) as (A1 & A2 & _).
    destruct (named_shape _ _ (SH k Hk) NM) as (X1 & X2 & X3). rewrite <- A2. rewrite (values_layer true _ _ _ p _ U X1 X2 X3 A1 HU (HR2 k row Hrow)). apply HV, Hk. }
  assert (MAG : forall p l, nth_error (j_layers j) p = Some l -> (0 < n)%nat -> reads g (l_id l ++ "_m") (map (fun k => l_mag (layer_at s p (Datatypes.S (k * w)) l)) (seq 0 n))).
  { intros p l Hl P. unfold reads. rewrite !map_map. rewrite !sapp_assoc. cbn [append].
    split; [|split]; [apply (COL p l "mx"%string)|apply (COL p l "my"%string)|apply (COL p l "mz"%string)]; try assumption; try reflexivity;
    intros k _; destruct (values_m true (layer_at s p (Datatypes.S (k * w)) l)) as (V1 & V2 & V3); assumption. }
  assert (FLD : forall p l tag h, nth_error (j_layers j) p = Some l -> (0 < n)%nat -> field_tag (l_includeSOT l) tag h ->
     reads g (colname (l_id l) tag) (map (fun k => h (l_cache (layer_at s p (Datatypes.S (k * w)) l))) (seq 0 n))).
  { intros p l tag h Hl P FT. unfold reads. rewrite !map_map, !colname_app. destruct (field_tag_values l tag h FT) as (U & _ & _ & _).
    split; [|split]; apply (COL p l); try assumption; try (rewrite U; reflexivity);
    intros k Hk; destruct (AT p l k Hl Hk) as (_ & _ & A3); rewrite <- A3 in FT; destruct (field_tag_values _ tag h FT) as (_ & _ & _ & V1 & V2 & V3); assumption. }
  assert (KEY : forall k, In k (keys g) -> (0 < n)%nat /\ ((exists p l i T, nth_error (j_layers j) p = Some l /\ (i < n)%nat /\ In T (map fst (tag_row true (layer_at s p (Datatypes.S (i * w)) l))) /\ us T = 0%nat /\ k = colname (l_id l) T) \/
      us k = 0%nat \/ exists a b, In a (ids j) /\ In b (ids j) /\ j_mode j = MR_CLASSIC /\ (1 < length (j_layers j))%nat /\ k = ("R_" ++ a ++ "_" ++ b)%string)).
  { intros k Hk. rewrite EG in Hk. apply keys_push_rows in Hk. destruct Hk as [[]|(row & I & Hk)]. apply In_nth_error in I. destruct I as (i & Hi).
    assert (Li : (i < n)%nat) by (rewrite <- HR1; apply nth_error_Some; congruence). split; [lia|].
    pose proof (SH i Li) as SHi. destruct (row_key_cases _ _ _ _ _ (HR2 i row Hi) Hk) as [(l' & U & Hl' & HU & UU & ->)|[H|(M & L2 & ->)]].
    - left. apply In_nth_error in Hl'. destruct Hl' as (p & Hp). assert (PL' : exists l, nth_error (j_layers j) p = Some l).
      { destruct (nth_error (j_layers j) p) as [l|] eqn:X; [exists l; reflexivity|]. exfalso. apply nth_error_None in X.
        assert (LE : length (ids (s (Datatypes.S (i * w)))) = length (ids j)) by (destruct SHi as (Y & _); first [rewrite Y; reflexivity|rewrite <- Y; reflexivity]).
        unfold ids in LE. rewrite !map_length in LE. assert (p < length (j_layers (s (Datatypes.S (i * w)))))%nat by (apply nth_error_Some; congruence). lia. }
      destruct PL' as (l & Hl). destruct (AT p l i Hl Li) as (A1 & A2 & _). rewrite A1 in Hp. injection Hp as <-.
      exists p, l, i, U. split; [exact Hl|]. split; [exact Li|]. split; [exact HU|]. split; [exact UU|]. rewrite A2. reflexivity.
    - right. left. exact H.
    - right. right. destruct (named_shape _ _ SHi NM) as (X1 & _ & _). unfold tag_ok in X1.
      assert (IDS : ids (s (Datatypes.S (i * w))) = ids j) by (destruct SHi as (Y & _); first [exact Y|symmetry; exact Y]).
      assert (MD : j_mode j = MR_CLASSIC) by (unfold shape in SHi; decompose [and] SHi; congruence).
      unfold ids in *. destruct (j_layers (s (Datatypes.S (i * w)))) as [|l0 [|l1 rest]]; cbn in L2; try lia.
      exists (l_id l0), (l_id l1). rewrite <- IDS. split; [left; reflexivity|]. split; [right; left; reflexivity|]. split; [exact MD|].
      split; [|exact (X1 M)]. rewrite <- (map_length l_id), <- IDS. cbn. lia. }
  assert (NAME : forall p, mag_name g p <-> (0 < n)%nat /\ In p (ids j)).
  { intros q. split.
    - intros (key & K & I & ER). destruct (KEY key K) as (P & C). split; [exact P|].
      destruct C as [(p & l & i & U & Hl & Hi & HU & UU & ->)|[C|(a & b & Ia & Ib & M & L2 & ->)]].
      + assert (IL : In (l_id l) (ids j)) by (apply in_map; eapply nth_error_In; exact Hl). assert (PI := proj1 (plain_us _) (PL _ IL)).
        pose proof (infix_col "mx" (l_id l) U eq_refl PI UU I) as ST. apply (mag_tag true _ _ HU) in ST. subst U. rewrite (erased_fun _ _ (erased_mx _ PI) _ ER). exact IL.
      + exfalso. exact (infix_none "mx" key C I).
      + exfalso. assert (PA := proj1 (plain_us _) (PL _ Ia)). assert (PB := proj1 (plain_us _) (PL _ Ib)).
        destruct (infix_tag "mx" a b eq_refl PA PB I) as [X|X]; [exact (proj2 (CL M L2 a Ia) X)|exact (proj2 (CL M L2 b Ib) X)].
    - intros (P & I). unfold ids in I. apply in_map_iff in I. destruct I as (l & <- & I). apply In_nth_error in I. destruct I as (p & Hl).
      exists (colname (l_id l) "mx"). split; [|split].
      + rewrite EG. apply keys_push_rows. right. destruct (ROW 0%nat P) as (row & Hrow & HL). exists row. split; [eapply nth_error_In; exact Hrow|].
        apply values_in. destruct (AT p l 0%nat Hl P) as (A1 & A2 & _). destruct (named_shape _ _ (SH 0%nat P) NM) as (X1 & X2 & X3).
        rewrite <- A2. rewrite (values_layer true _ _ _ p _ "mx" X1 X2 X3 A1 eq_refl HL). destruct (values_m true (layer_at s p (Datatypes.S (0 * w)) l)) as (V & _). rewrite V. discriminate.
      + exists (l_id l), ""%string. unfold colname. rewrite ?sapp_nil. reflexivity.
      + apply erased_mx. apply plain_us, PL. apply in_map. eapply nth_error_In. exact Hl. }
  assert (FKEY : forall f, field_key g f <-> exists p l tag h, nth_error (j_layers j) p = Some l /\ (0 < n)%nat /\ field_tag (l_includeSOT l) tag h /\ f = colname (l_id l) tag).
  { intros f. split.
    - intros (c & K & I). destruct (KEY _ K) as (P & C). destruct C as [(p & l & i & U & Hl & Hi & HU & UU & EK)|[C|(a & b & Ia & Ib & M & L2 & EK)]].
      + assert (IL : In (l_id l) (ids j)) by (apply in_map; eapply nth_error_In; exact Hl). assert (PI := proj1 (plain_us _) (PL _ IL)).
        rewrite EK in I. pose proof (infix_col "H" (l_id l) U eq_refl PI UU I) as ST. destruct (field_tags _ _ HU ST) as (tag & h & c' & FT & ->).
        destruct (AT p l i Hl Hi) as (_ & _ & A3). rewrite A3 in FT. exists p, l, tag, h. split; [exact Hl|]. split; [exact P|]. split; [exact FT|].
        rewrite <- colname_app in EK. assert (X := f_equal drop_last EK). rewrite !drop_last_snoc in X. exact X.
      + exfalso. exact (infix_none "H" _ C I).
      + exfalso. rewrite EK in I. assert (PA := proj1 (plain_us _) (PL _ Ia)). assert (PB := proj1 (plain_us _) (PL _ Ib)).
        destruct (infix_tag "H" a b eq_refl PA PB I) as [X|X]; [exact (proj1 (CL M L2 a Ia) X)|exact (proj1 (CL M L2 b Ib) X)].
    - intros (p & l & tag & h & Hl & P & FT & ->). exists "x"%char. rewrite colname_app. destruct (field_tag_values l tag h FT) as (U & UT & (b & ST) & _). split.
      + rewrite EG. apply keys_push_rows. right. destruct (ROW 0%nat P) as (row & Hrow & HL). exists row. split; [eapply nth_error_In; exact Hrow|].
        apply values_in. destruct (AT p l 0%nat Hl P) as (A1 & A2 & A3). destruct (named_shape _ _ (SH 0%nat P) NM) as (X1 & X2 & X3).
        rewrite <- A2. rewrite (values_layer true _ _ _ p _ (tag ++ "x") X1 X2 X3 A1 (eq_trans (U "x"%char) eq_refl) HL). rewrite <- A3 in FT. destruct (field_tag_values _ tag h FT) as (_ & _ & _ & V1 & _). rewrite V1. discriminate.
      + exists (l_id l), (b ++ "x")%string. unfold colname. rewrite ST. cbn. reflexivity. }
  assert (ENT : forall p l tag h v, nth_error (j_layers j) p = Some l -> (0 < n)%nat -> field_tag (l_includeSOT l) tag h ->
     energy_entry S t g (colname (l_id l) tag) v <-> exists A, (Ends "J" (l_id l) /\ A = S \/ ~ Ends "J" (l_id l) /\ A = S * t) /\
      v = map (fun i => - Dot (l_mag (layer_at s p (Datatypes.S (i * w)) l)) (h (l_cache (layer_at s p (Datatypes.S (i * w)) l))) / A) (seq 0 n)).
  { intros p l tag h v Hl P FT. assert (IL : In (l_id l) (ids j)) by (apply in_map; eapply nth_error_In; exact Hl). assert (PI := proj1 (plain_us _) (PL _ IL)).
    destruct (field_tag_values l tag h FT) as (_ & UT & _).
    assert (W : first_word (colname (l_id l) tag) (l_id l)) by (split; [apply PL, IL|right; exists tag; reflexivity]).
    assert (PA : forall A, per S t (colname (l_id l) tag) A <-> (Ends "J" (l_id l) /\ A = S \/ ~ Ends "J" (l_id l) /\ A = S * t)) by (intros A; unfold per; rewrite infix_J by assumption; reflexivity).
    assert (PR : Paired (map (fun k => l_mag (layer_at s p (Datatypes.S (k * w)) l)) (seq 0 n)) (map (fun k => h (l_cache (layer_at s p (Datatypes.S (k * w)) l))) (seq 0 n))
       (map (fun k => (l_mag (layer_at s p (Datatypes.S (k * w)) l), h (l_cache (layer_at s p (Datatypes.S (k * w)) l)))) (seq 0 n))).
    { left. rewrite !map_length, !map_map. split; [reflexivity|]. split; reflexivity. }
    split.
    - intros (q & m & hh & ps & A & W' & _ & Rm & Rh & PR' & PA' & _ & ->). pose proof (first_word_fun _ _ _ W W') as <-. pose proof (reads_fun _ _ _ _ (MAG p l Hl P) Rm) as <-.
      pose proof (reads_fun _ _ _ _ (FLD p l tag h Hl P FT) Rh) as <-. pose proof (Paired_fun _ _ _ _ PR PR') as <-. exists A. split; [apply PA, PA'|]. rewrite map_map. reflexivity.
    - intros (A & HA & ->). eexists (l_id l), _, _, _, A. split; [exact W|]. split; [apply NAME; split; [exact P|exact IL]|]. split; [exact (MAG p l Hl P)|]. split; [exact (FLD p l tag h Hl P FT)|].
      split; [exact PR|]. split; [apply PA, HA|]. split; [|rewrite map_map; reflexivity]. right. destruct HA as [(_ & ->)|(_ & ->)]; [exact ZS|]. apply Rmult_integral_contrapositive_currified; assumption. }
  assert (EXA : forall id, exists A, (Ends "J" id /\ A = S \/ ~ Ends "J" id /\ A = S * t)).
  { intros id. destruct (Classical_Prop.classic (Ends "J" id)) as [X|X]; [exists S; left|exists (S * t); right]; split; auto. }
  destruct (compute_some S t g) as (data & ED).
  - intros q Hq. apply NAME in Hq. destruct Hq as (P & I). unfold ids in I. apply in_map_iff in I. destruct I as (l & <- & I). apply In_nth_error in I. destruct I as (p & Hl). eexists. exact (MAG p l Hl P).
  - intros f Hf. apply FKEY in Hf. destruct Hf as (p & l & tag & h & Hl & P & FT & ->). destruct (EXA (l_id l)) as (A & HA). eexists. apply (ENT p l tag h _ Hl P FT). exists A. split; [exact HA|reflexivity].
  - exists N, w, r, used, s, data. split; [exact HC|]. split; [exact HS|]. split; [exact HT|]. split; [exact ED|]. apply compute_sound in ED. destruct ED as (_ & ND & IFF & _). split; [exact ND|].
    intros k v. rewrite IFF. split.
    + intros (f & -> & FK & EN). apply FKEY in FK. destruct FK as (p & l & tag & h & Hl & P & FT & ->). apply (ENT p l tag h _ Hl P FT) in EN. destruct EN as (A & HA & Ev).
      exists p, l, tag, h, A. split; [exact Hl|]. split; [exact P|]. split; [exact FT|]. split; [reflexivity|]. split; [exact HA|exact Ev].
    + intros (p & l & tag & h & A & Hl & P & FT & -> & HA & Ev). exists (colname (l_id l) tag). split; [reflexivity|]. split; [apply FKEY; exists p, l, tag, h; split; [exact Hl|]; split; [exact P|]; split; [exact FT|reflexivity]|].
      apply (ENT p l tag h _ Hl P FT). exists A. split; [exact HA|exact Ev].
Qed.
