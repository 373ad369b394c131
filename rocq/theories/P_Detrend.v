(** Proofs about Filters.detrend_axis. *)
From Verif Require Export P_Shapes P_Pimm.
Open Scope R_scope.
Open Scope st_scope.
Set Implicit Arguments.

(** ** Sorting and medians *)
Lemma insert_perm x l : Permutation (x :: l) (insert_R x l).
Proof.
  induction l as [|y l IH]; cbn; [apply Permutation_refl|]. destruct (Rle_dec x y); [apply Permutation_refl|].
  apply (perm_trans (perm_swap y x l)). apply perm_skip, IH.
Qed.
Lemma sort_perm l : Permutation l (sort_R l).
Proof. induction l as [|x l IH]; [constructor|]. apply (perm_trans (perm_skip x IH)). apply insert_perm. Qed.
Lemma insert_ssorted x l : StronglySorted Rle l -> StronglySorted Rle (insert_R x l).
Proof.
  induction l as [|y l IH]; intros H; cbn; [repeat constructor|]. inversion H as [|? ? S F]; subst. destruct (Rle_dec x y) as [L|L].
  - constructor; [exact H|]. constructor; [exact L|]. rewrite Forall_forall in *. intros z Z. specialize (F z Z). lra.
  - constructor; [apply IH, S|]. rewrite Forall_forall in *. intros z Z. apply (Permutation_in z (Permutation_sym (insert_perm x l))) in Z. destruct Z as [<-|Z]; [lra|exact (F z Z)].
Qed.
Lemma sort_ssorted l : StronglySorted Rle (sort_R l).
Proof. induction l as [|x l IH]; [constructor|]. apply insert_ssorted, IH. Qed.
Lemma sorted_unique l : forall k, Permutation l k -> StronglySorted Rle l -> StronglySorted Rle k -> l = k.
Proof.
  induction l as [|x l IH]; intros k P S1 S2; [apply Permutation_nil in P; subst; reflexivity|].
  destruct k as [|y k]; [apply Permutation_sym, Permutation_nil in P; discriminate|].
  inversion S1 as [|? ? S1' F1]; subst. inversion S2 as [|? ? S2' F2]; subst. rewrite Forall_forall in F1, F2.
  assert (E : x = y).
  { assert (A1 : In x (y :: k)) by (apply (Permutation_in x P); left; reflexivity). assert (A2 : In y (x :: l)) by (apply (Permutation_in y (Permutation_sym P)); left; reflexivity).
    destruct A1 as [A1|A1]; [congruence|]. destruct A2 as [A2|A2]; [congruence|]. specialize (F1 y A2). specialize (F2 x A1). lra. }
  subst y. f_equal. apply IH; [apply (Permutation_cons_inv P)|exact S1'|exact S2'].
Qed.
Lemma median_unique xs a b : median xs a -> median xs b -> a = b.
Proof.
  intros (_ & s & P & S & ->) (_ & s' & P' & S' & ->). rewrite (sorted_unique (perm_trans (Permutation_sym P) P') S S'). reflexivity.
Qed.
Lemma np_median_iff xs m : np_median xs = Ok m <-> median xs m.
Proof.
  assert (K : xs <> [] -> exists m, np_median xs = Ok m /\ median xs m).
  { intros N. unfold np_median. destruct (length xs) as [|n] eqn:L; [destruct xs; [contradiction|discriminate]|].
    destruct (Nat.even (S n)) eqn:E; eexists; (split; [reflexivity|]); (split; [exact N|]); exists (sort_R xs); (split; [apply sort_perm|]); (split; [apply sort_ssorted|]); rewrite L.
    - apply Nat.even_spec in E. destruct E as [k E]. assert (1 <= k)%nat by lia. replace (S n) with (k * 2)%nat in * by lia. rewrite Nat.div_mul by lia.
      replace ((k * 2 - 1) / 2)%nat with (k - 1)%nat; [reflexivity|]. apply (Nat.div_unique (k * 2 - 1) 2 (k - 1) 1); lia.
    - assert (O : Nat.odd (S n) = true) by (unfold Nat.odd; rewrite E; reflexivity). apply Nat.odd_spec in O. destruct O as [k O]. rewrite O.
      replace ((2 * k + 1) / 2)%nat with k by (apply (Nat.div_unique (2 * k + 1) 2 k 1); lia).
      replace ((2 * k + 1 - 1) / 2)%nat with k by (apply (Nat.div_unique (2 * k + 1 - 1) 2 k 0); lia). lra. }
  split.
  - intros E. destruct xs as [|x xs]; [discriminate|]. destruct K as (m' & E' & M); [discriminate|]. congruence.
  - intros M. destruct K as (m' & E' & M'); [apply M|]. rewrite (median_unique M M'). exact E'.
Qed.
Lemma median_exists xs : xs <> [] -> exists m, median xs m.
Proof. 
  intros N. destruct (np_median xs) as [m|e] eqn:E; [exists m; apply np_median_iff, E|]. exfalso. unfold np_median in E. destruct xs; [contradiction|]. cbn [length] in E. destruct (Nat.even _); discriminate.
Qed.
Lemma median_shift xs m c : median xs m -> median (map (fun x => x - c) xs) (m - c).
Proof.
  intros (N & s & P & S & ->). split; [destruct xs; [contradiction|discriminate]|]. exists (map (fun x => x - c) s). split; [apply Permutation_map, P|].
  split.
  - clear P. induction S as [|x s S IH F]; [constructor|]. constructor; [exact IH|]. apply Forall_map. rewrite Forall_forall in *. intros y Y. specialize (F y Y). lra.
  - rewrite map_length. assert (L := Permutation_length P).
    assert (K : forall i, (i < length s)%nat -> nth i (map (fun x => x - c) s) 0 = nth i s 0 - c).
    { intros i Hi. rewrite (nth_indep _ 0 (0 - c)) by (rewrite map_length; exact Hi). apply (map_nth (fun x => x - c)). }
    assert (L0 : (0 < length xs)%nat) by (destruct xs; [contradiction|cbn; lia]).
    rewrite !K; [lra| |]; rewrite <- L; apply Nat.div_lt_upper_bound; lia.
Qed.

(** ** Arrays *)
Lemma elementwise_same (f : R -> R -> R) xs ys : length xs = length ys -> elementwise f xs ys = Ok (map (fun p => f (fst p) (snd p)) (combine xs ys)).
Proof.
  intros L. destruct xs as [|x [|x' xs]]; destruct ys as [|y [|y' ys]]; cbn in L; try lia; try reflexivity.
  cbn [elementwise]. rewrite (proj2 (Nat.eqb_eq _ _)) by exact L. reflexivity.
Qed.
Lemma combine_nth_minus xs : forall ys j, length xs = length ys -> (j < length xs)%nat -> nth j (map (fun p : R * R => fst p - snd p) (combine xs ys)) 0 = nth j xs 0 - nth j ys 0.
Proof. induction xs as [|x xs IH]; intros [|y ys] j L H; cbn in *; try lia. destruct j; [reflexivity|]. apply IH; lia. Qed.
Lemma shape_hd arr r c : sized arr r c -> (0 < r)%nat -> length (hd [] arr) = c.
Proof. intros [L F] P. destruct arr as [|row arr]; [cbn in L; lia|]. apply F. left. reflexivity. Qed.
Lemma shape_row arr r c i : sized arr r c -> (i < r)%nat -> length (nth i arr []) = c.
Proof. intros [L F] P. apply F, nth_In. lia. Qed.
Lemma transposed_eq arr r c : sized arr r c -> (0 < r)%nat -> transposed arr = map (column arr) (seq 0 c).
Proof. intros H P. unfold transposed, columns. rewrite (shape_hd H P). reflexivity. Qed.
Lemma column_length arr r c j : sized arr r c -> length (column arr j) = r.
Proof. intros [L _]. unfold column. rewrite map_length. exact L. Qed.
Lemma nth_column arr i j : (i < length arr)%nat -> nth i (column arr j) 0 = entry arr i j.
Proof. intros H. unfold column, entry. rewrite (nth_indep _ 0 ((fun row => nth j row 0) [])) by (rewrite map_length; exact H). rewrite (map_nth (fun row => nth j row 0)). reflexivity. Qed.
Lemma shape_transposed arr r c : sized arr r c -> (0 < r)%nat -> sized (transposed arr) c r.
Proof.
  intros H P. rewrite (transposed_eq H P). split; [rewrite map_length, seq_length; reflexivity|]. intros row I. apply in_map_iff in I. destruct I as (j & <- & _).
  apply (column_length j H).
Qed.
Lemma entry_transposed arr r c i j : sized arr r c -> (i < r)%nat -> (j < c)%nat -> entry (transposed arr) j i = entry arr i j.
Proof.
  intros H I J. assert (H' := H). destruct H' as [L F]. rewrite (transposed_eq H) by lia. unfold entry at 1.
  rewrite (nth_indep _ [] (column arr 0)) by (rewrite map_length, seq_length; exact J). rewrite map_nth, seq_nth by exact J. cbn [Nat.add]. apply nth_column. lia.
Qed.
Lemma array_ext a b r c : sized a r c -> sized b r c -> (forall i j, (i < r)%nat -> (j < c)%nat -> entry a i j = entry b i j) -> a = b.
Proof.
  intros Ha Hb E. assert (La := proj1 Ha). assert (Lb := proj1 Hb). apply (nth_ext a b [] []); [congruence|]. intros i Hi.
  apply (nth_ext _ _ 0 0); [rewrite (shape_row Ha) by lia; rewrite (shape_row Hb) by lia; reflexivity|]. intros j Hj. rewrite (shape_row Ha) in Hj by lia. apply E; lia.
Qed.
Lemma transposed_row arr r c i : sized arr r c -> (i < r)%nat -> column (transposed arr) i = nth i arr [].
Proof.
  intros H I. assert (H' := shape_transposed H ltac:(lia)). apply (nth_ext _ _ 0 0); [rewrite (column_length i H'), (shape_row H I); reflexivity|].
  intros j Hj. rewrite (column_length i H') in Hj. rewrite nth_column by (rewrite (proj1 H'); exact Hj). rewrite (entry_transposed H I Hj). reflexivity.
Qed.

(** [out] is [arr] with the number [m j] taken from column [j]. *)
Definition minus_columns (arr : list (list R)) (ms : list R) : list (list R) :=
  map (fun row => map (fun p => fst p - snd p) (combine row ms)) arr.
Lemma minus_columns_eq arr r c ms : sized arr r c -> length ms = c -> mapM (fun row => elementwise Rminus row ms) arr = Ok (minus_columns arr ms).
Proof. intros [L F] E. apply mapM_pure. intros row I. apply elementwise_same. rewrite (F row I). congruence. Qed.
Lemma minus_columns_shape arr r c ms : sized arr r c -> length ms = c -> sized (minus_columns arr ms) r c.
Proof.
  intros [L F] E. split; [unfold minus_columns; rewrite map_length; exact L|]. intros row I. apply in_map_iff in I. destruct I as (row' & <- & I).
  rewrite map_length, combine_length, (F row' I). lia.
Qed.
Lemma minus_columns_entry arr r c ms i j : sized arr r c -> length ms = c -> (i < r)%nat -> (j < c)%nat -> entry (minus_columns arr ms) i j = entry arr i j - nth j ms 0.
Proof.
  intros H E I J. assert (LR := shape_row H I). unfold entry, minus_columns. destruct H as [L F].
  rewrite (nth_indep _ [] ((fun row => map (fun p : R * R => fst p - snd p) (combine row ms)) [])) by (rewrite map_length; lia). rewrite (map_nth (fun row => map (fun p : R * R => fst p - snd p) (combine row ms))).
  apply combine_nth_minus; lia.
Qed.
Lemma medians_exist lines : (forall l, In l lines -> l <> []) -> exists ms, mapM np_median lines = Ok ms /\ length ms = length lines /\ forall k, (k < length lines)%nat -> median (nth k lines []) (nth k ms 0).
Proof.
  induction lines as [|l lines IH]; intros N; [exists []; split; [reflexivity|split; [reflexivity|cbn; lia]]|].
  destruct (median_exists (N l (or_introl eq_refl))) as (m & M). destruct IH as (ms & E & L & K); [intros x X; apply N; right; exact X|].
  exists (m :: ms). split; [cbn [mapM]; rewrite (proj2 (np_median_iff l m) M), E; reflexivity|]. split; [cbn; lia|]. intros [|k] H; cbn; [exact M|]. apply K. cbn in H. lia.
Qed.
Lemma medians_none l lines ms : In l lines -> l = [] -> mapM np_median lines <> Ok ms.
Proof. intros I -> E. revert E. apply (mapM_fail _ []); [exact I|]. intros y. discriminate. Qed.

(** Detrending along the rows' axis 0: each column loses its median. *)
Lemma detrend0 arr r c out : sized arr r c -> (0 < r)%nat ->
  detrend_axis arr 0 = Ok out <-> sized out r c /\ forall j, (j < c)%nat -> exists m, median (column arr j) m /\ forall i, (i < r)%nat -> entry out i j = entry arr i j - m.
Proof.
  intros H P. unfold detrend_axis. cbn [Z.eqb orb].
  destruct (medians_exist (transposed arr)) as (ms & E & L & K).
  { intros l I. assert (LL := proj2 (shape_transposed H P) l I). destruct l; [cbn in LL; lia|discriminate]. }
  rewrite E. cbn [rbind]. assert (LT := proj1 (shape_transposed H P)). rewrite LT in L, K.
  rewrite (minus_columns_eq ms H L).
  assert (KC : forall j, (j < c)%nat -> median (column arr j) (nth j ms 0)).
  { intros j J. specialize (K j J). rewrite (transposed_eq H P) in K. rewrite (nth_indep _ [] (column arr 0)) in K by (rewrite map_length, seq_length; exact J). rewrite map_nth, seq_nth in K by exact J. exact K. }
  split.
  - intros X. injection X as <-. split; [apply (minus_columns_shape ms H L)|]. intros j J. exists (nth j ms 0). split; [apply KC, J|]. intros i I. apply (minus_columns_entry ms H L I J).
  - intros [S F]. f_equal. apply (array_ext (minus_columns_shape ms H L) S). intros i j I J. destruct (F j J) as (m & M & Q). rewrite (Q i I), (minus_columns_entry ms H L I J).
    rewrite (median_unique M (KC j J)). reflexivity.
Qed.
(** Along axis 1 (or -1): each row loses its median. *)
Lemma detrend1 arr r c ax out : ax = 1%Z \/ ax = (-1)%Z -> sized arr r c -> (0 < r)%nat -> (0 < c)%nat ->
  detrend_axis arr ax = Ok out <-> sized out r c /\ forall i, (i < r)%nat -> exists m, median (nth i arr []) m /\ forall j, (j < c)%nat -> entry out i j = entry arr i j - m.
Proof.
  intros A H P PC.
  assert (U : detrend_axis arr ax = (ms <-- mapM np_median arr ;; rows <-- mapM (fun row => elementwise Rminus row ms) (transposed arr) ;; Ok (transposed rows))) by (destruct A as [-> | ->]; reflexivity).
  rewrite U. clear U.
  destruct (medians_exist arr) as (ms & E & L & K).
  { intros l I. assert (LL := proj2 H l I). destruct l; [cbn in LL; lia|discriminate]. }
  rewrite E. cbn [rbind]. assert (LA := proj1 H). rewrite LA in L, K. assert (HT := shape_transposed H P).
  rewrite (minus_columns_eq ms HT L). cbn [rbind].
  assert (SM := minus_columns_shape ms HT L). assert (ST := shape_transposed SM PC).
  assert (V : forall i j, (i < r)%nat -> (j < c)%nat -> entry (transposed (minus_columns (transposed arr) ms)) i j = entry arr i j - nth i ms 0).
  { intros i j I J. rewrite (entry_transposed SM J I). rewrite (minus_columns_entry ms HT L J I). rewrite (entry_transposed H I J). reflexivity. }
  split.
  - intros X. injection X as <-. split; [exact ST|]. intros i I. exists (nth i ms 0). split; [apply K, I|]. intros j J. apply V; assumption.
  - intros [S F]. f_equal. apply (array_ext ST S). intros i j I J. destruct (F i I) as (m & M & Q). rewrite (Q j J), V by assumption. rewrite (median_unique M (K i I)). reflexivity.
Qed.
Lemma detrend0_total arr r c : sized arr r c -> (0 < r)%nat -> exists out, detrend_axis arr 0 = Ok out.
Proof.
  intros H P. unfold detrend_axis. cbn [Z.eqb orb]. destruct (medians_exist (transposed arr)) as (ms & E & L & K).
  { intros l I. assert (LL := proj2 (shape_transposed H P) l I). destruct l; [cbn in LL; lia|discriminate]. }
  rewrite E. cbn [rbind]. rewrite (proj1 (shape_transposed H P)) in L. eexists. apply (minus_columns_eq ms H L).
Qed.
Lemma detrend1_total arr r c ax : ax = 1%Z \/ ax = (-1)%Z -> sized arr r c -> (0 < r)%nat -> (0 < c)%nat -> exists out, detrend_axis arr ax = Ok out.
Proof.
  intros A H P PC.
  assert (U : detrend_axis arr ax = (ms <-- mapM np_median arr ;; rows <-- mapM (fun row => elementwise Rminus row ms) (transposed arr) ;; Ok (transposed rows))) by (destruct A as [-> | ->]; reflexivity).
  rewrite U. destruct (medians_exist arr) as (ms & E & L & K).
  { intros l I. assert (LL := proj2 H l I). destruct l; [cbn in LL; lia|discriminate]. }
  rewrite E. cbn [rbind]. rewrite (proj1 H) in L. rewrite (minus_columns_eq ms (shape_transposed H P) L). eexists. reflexivity.
Qed.
Lemma column_minus arr out r c j m : sized arr r c -> sized out r c -> (forall i, (i < r)%nat -> entry out i j = entry arr i j - m) -> column out j = map (fun x => x - m) (column arr j).
Proof.
  intros H S Q. apply (nth_ext _ _ 0 0); [rewrite map_length, (column_length j H), (column_length j S); reflexivity|]. intros i I. rewrite (column_length j S) in I.
  rewrite nth_column by (rewrite (proj1 S); exact I). rewrite (Q i I). rewrite (nth_indep _ 0 ((fun x => x - m) 0)) by (rewrite map_length, (column_length j H); exact I).
  rewrite (map_nth (fun x => x - m)). rewrite nth_column by (rewrite (proj1 H); exact I). reflexivity.
Qed.
Lemma row_minus arr out r c i m : sized arr r c -> sized out r c -> (i < r)%nat -> (forall j, (j < c)%nat -> entry out i j = entry arr i j - m) -> nth i out [] = map (fun x => x - m) (nth i arr []).
Proof.
  intros H S I Q. apply (nth_ext _ _ 0 0); [rewrite map_length, (shape_row H I), (shape_row S I); reflexivity|]. intros j J. rewrite (shape_row S I) in J.
  fold (entry out i j). rewrite (Q j J). rewrite (nth_indep _ 0 ((fun x => x - m) 0)) by (rewrite map_length, (shape_row H I); exact J).
  rewrite (map_nth (fun x => x - m)). reflexivity.
Qed.
Lemma zero_columns arr r c out j : sized arr r c -> (0 < r)%nat -> detrend_axis arr 0 = Ok out -> (j < c)%nat -> median (column out j) 0.
Proof.
  intros H P E J. apply (detrend0 out H P) in E. destruct E as [S F]. destruct (F j J) as (m & M & Q). rewrite (column_minus j H S Q).
  replace 0 with (m - m) by ring. apply median_shift, M.
Qed.
Lemma zero_rows arr r c ax out i : ax = 1%Z \/ ax = (-1)%Z -> sized arr r c -> (0 < c)%nat -> detrend_axis arr ax = Ok out -> (i < r)%nat -> median (nth i out []) 0.
Proof.
  intros A H PC E I. assert (P : (0 < r)%nat) by lia. apply (detrend1 out A H P PC) in E. destruct E as [S F]. destruct (F i I) as (m & M & Q). rewrite (row_minus H S I Q).
  replace 0 with (m - m) by ring. apply median_shift, M.
Qed.
Lemma detrend0_again arr r c out : sized arr r c -> (0 < r)%nat -> detrend_axis arr 0 = Ok out -> detrend_axis out 0 = Ok out.
Proof.
  intros H P E. assert (Z := fun j => zero_columns (j := j) H P E). apply (detrend0 out H P) in E. destruct E as [S F]. apply (detrend0 out S P). split; [exact S|].
  intros j J. exists 0. split; [apply Z, J|]. intros i I. ring.
Qed.
Lemma detrend1_again arr r c ax out : ax = 1%Z \/ ax = (-1)%Z -> sized arr r c -> (0 < r)%nat -> (0 < c)%nat -> detrend_axis arr ax = Ok out -> detrend_axis out ax = Ok out.
Proof.
  intros A H P PC E. assert (Z := fun i => zero_rows (i := i) A H PC E). apply (detrend1 out A H P PC) in E. destruct E as [S F]. apply (detrend1 out A S P PC). split; [exact S|].
  intros i I. exists 0. split; [apply Z, I|]. intros j J. ring.
Qed.
(** A constant added to a column (a row) does not change the result. *)
Lemma detrend0_offsets arr brr r c (k : nat -> R) : sized arr r c -> sized brr r c -> (0 < r)%nat -> (forall i j, (i < r)%nat -> (j < c)%nat -> entry brr i j = entry arr i j + k j) -> detrend_axis brr 0 = detrend_axis arr 0.
Proof.
  intros H H' P Q. destruct (detrend0_total H P) as (out & E). rewrite E. assert (E' := E). apply (detrend0 out H P) in E'. destruct E' as [S F]. apply (detrend0 out H' P). split; [exact S|].
  intros j J. destruct (F j J) as (m & M & V). exists (m + k j). split.
  - rewrite (column_minus j (m := - k j) H H') by (intros i I; rewrite Q by assumption; ring). replace (m + k j) with (m - - k j) by ring. apply median_shift, M.
  - intros i I. rewrite (V i I), Q by assumption. ring.
Qed.
Lemma detrend1_offsets arr brr r c ax (k : nat -> R) : ax = 1%Z \/ ax = (-1)%Z -> sized arr r c -> sized brr r c -> (0 < r)%nat -> (0 < c)%nat -> (forall i j, (i < r)%nat -> (j < c)%nat -> entry brr i j = entry arr i j + k i) -> detrend_axis brr ax = detrend_axis arr ax.
Proof.
  intros A H H' P PC Q. destruct (detrend1_total A H P PC) as (out & E). rewrite E. assert (E' := E). apply (detrend1 out A H P PC) in E'. destruct E' as [S F]. apply (detrend1 out A H' P PC). split; [exact S|].
  intros i I. destruct (F i I) as (m & M & V). exists (m + k i). split.
  - rewrite (row_minus (m := - k i) H H' I) by (intros j J; rewrite Q by assumption; ring). replace (m + k i) with (m - - k i) by ring. apply median_shift, M.
  - intros j J. rewrite (V j J), Q by assumption. ring.
Qed.
(** The negative name of axis 0. *)
Lemma elementwise_differ f xs ys zs : length xs <> length ys -> length xs <> 1%nat -> length ys <> 1%nat -> elementwise f xs ys <> Ok zs.
Proof.
  intros N N1 N2. destruct xs as [|x [|x' xs]]; destruct ys as [|y [|y' ys]]; cbn in *; try lia; try discriminate.
  destruct (Nat.eqb_spec (length xs) (length ys)) as [X|X]; [lia|discriminate].
Qed.
Lemma detrend_minus_two arr r c out : sized arr r c -> (1 < r)%nat -> (1 < c)%nat -> detrend_axis arr (-2) = Ok out <->
  r = c /\ sized out r c /\ forall i, (i < r)%nat -> exists m, median (column arr i) m /\ forall j, (j < c)%nat -> entry out i j = entry arr i j - m.
Proof.
  intros H P PC. assert (P0 : (0 < r)%nat) by lia. unfold detrend_axis. cbn [Z.eqb orb].
  destruct (medians_exist (transposed arr)) as (ms & E & L & K).
  { intros l I. assert (LL := proj2 (shape_transposed H P0) l I). destruct l; [cbn in LL; lia|discriminate]. }
  rewrite E. cbn [rbind Pos.eqb]. assert (HT := shape_transposed H P0). assert (LT := proj1 HT). rewrite LT in L, K.
  assert (KC : forall j, (j < c)%nat -> median (column arr j) (nth j ms 0)).
  { intros j J. specialize (K j J). rewrite (transposed_eq H P0) in K. rewrite (nth_indep _ [] (column arr 0)) in K by (rewrite map_length, seq_length; exact J). rewrite map_nth, seq_nth in K by exact J. exact K. }
  destruct (Nat.eq_dec r c) as [EQ|NE].
  - destruct EQ. rewrite (minus_columns_eq ms HT L). cbn [rbind].
    assert (SM := minus_columns_shape ms HT L). assert (ST := shape_transposed SM P0).
    assert (V : forall i j, (i < r)%nat -> (j < r)%nat -> entry (transposed (minus_columns (transposed arr) ms)) i j = entry arr i j - nth i ms 0).
    { intros i j I J. rewrite (entry_transposed SM J I), (minus_columns_entry ms HT L J I), (entry_transposed H I J). reflexivity. }
    split.
    + intros X. injection X as <-. split; [reflexivity|]. split; [exact ST|]. intros i I. exists (nth i ms 0). split; [apply KC, I|]. intros j J. apply V; assumption.
    + intros (_ & S & F). f_equal. apply (array_ext ST S). intros i j I J. destruct (F i I) as (m & M & Q). rewrite (Q j J), V by assumption. rewrite (median_unique M (KC i I)). reflexivity.
  - split; [|intros [X _]; contradiction]. intros X. exfalso. apply rbind_inv in X. destruct X as (rows & X & _). revert X. 
    apply (mapM_fail _ (nth 0 (transposed arr) [])); [apply nth_In; lia|]. intros y. apply elementwise_differ; rewrite ?(shape_row HT) by lia; lia.
Qed.
Lemma detrend_bad_axis arr ax out : ~ In ax [0; 1; -1; -2]%Z -> detrend_axis arr ax <> Ok out.
Proof.
  intros N. unfold detrend_axis. destruct (Z.eqb_spec ax 0); [exfalso; apply N; subst; cbn; tauto|]. destruct (Z.eqb_spec ax (-2)); [exfalso; apply N; subst; cbn; tauto|].
  destruct (Z.eqb_spec ax 1); [exfalso; apply N; subst; cbn; tauto|]. destruct (Z.eqb_spec ax (-1)); [exfalso; apply N; subst; cbn; tauto|]. discriminate.
Qed.
(** A square spectrum. *)
Definition ex_square : list (list R) := [[1; 2]; [3; 4]].
Lemma ex_square_sized : sized ex_square 2 2.
Proof. split; [reflexivity|]. intros row [<-|[<-|[]]]; reflexivity. Qed.
Lemma median_pair a b : a <= b -> median [a; b] ((a + b) / 2).
Proof. intros L. split; [discriminate|]. exists [a; b]. split; [apply Permutation_refl|]. split; [apply SSorted_cons; [repeat constructor|constructor; [exact L|constructor]]|reflexivity]. Qed.
Lemma ex_square_0 : detrend_axis ex_square 0 = Ok [[-1; -1]; [1; 1]].
Proof.
  apply (detrend0 _ ex_square_sized); [lia|]. split; [split; [reflexivity|intros row [<-|[<-|[]]]; reflexivity]|].
  intros [|[|j]] J; [exists ((1 + 3) / 2)|exists ((2 + 4) / 2)|lia]; (split; [apply median_pair; lra|]); intros [|[|i]] I; try lia; unfold entry; cbn; lra.
Qed.
Lemma ex_square_minus : detrend_axis ex_square (-2) = Ok [[-1; 0]; [0; 1]].
Proof.
  apply (detrend_minus_two _ ex_square_sized); [lia|lia|]. split; [reflexivity|]. split; [split; [reflexivity|intros row [<-|[<-|[]]]; reflexivity]|].
  intros [|[|j]] J; [exists ((1 + 3) / 2)|exists ((2 + 4) / 2)|lia]; (split; [apply median_pair; lra|]); intros [|[|i]] I; try lia; unfold entry; cbn; lra.
Qed.
