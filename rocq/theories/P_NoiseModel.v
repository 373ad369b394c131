(** Proofs about the domain noise model. *)
From Verif Require Export S_NoiseModel P_Detrend P_Compute.
Open Scope R_scope.
Open Scope st_scope.
Set Implicit Arguments.

Lemma ztrunc_iff x z : ztrunc x = z <-> whole_part x z.
Proof.
  assert (K : whole_part x (ztrunc x)).
  { unfold ztrunc, whole_part. destruct (Rle_dec 0 x) as [L|L].
    - left. destruct (base_Int_part x) as [B1 B2]. lra.
    - right. destruct (base_Int_part (- x)) as [B1 B2]. rewrite opp_IZR. lra. }
  assert (U : forall y, whole_part x y -> y = ztrunc x).
  { intros y H. destruct H as [[P H]|[P H]]; destruct K as [[P' K]|[P' K]]; try lra.
    - assert (A1 : (y < ztrunc x + 1)%Z) by (apply lt_IZR; rewrite plus_IZR; lra). assert (A2 : (ztrunc x < y + 1)%Z) by (apply lt_IZR; rewrite plus_IZR; lra). lia.
    - assert (A1 : (y - 1 < ztrunc x)%Z) by (apply lt_IZR; rewrite minus_IZR; lra). assert (A2 : (ztrunc x - 1 < y)%Z) by (apply lt_IZR; rewrite minus_IZR; lra). lia. }
  split; [intros <-; exact K|intros H; symmetry; apply U, H].
Qed.
Lemma divides_iff i q : np_divides i q = true <-> fires i q.
Proof.
  unfold np_divides, fires. destruct (Z.eqb_spec q 0) as [->|N]; [tauto|]. rewrite Z.eqb_eq. rewrite Z.mod_divide by exact N. tauto.
Qed.
Lemma count_iff (P : nat -> Prop) (b : nat -> bool) : (forall k, b k = true <-> P k) -> forall k r, count_below P k r <-> r = length (filter b (seq 0 k)).
Proof.
  intros E k. induction k as [|k IH]; intros r.
  - split; [intros H; inversion H; reflexivity|intros ->; constructor].
  - rewrite seq_S, filter_app, app_length. cbn [Nat.add filter]. destruct (b k) eqn:B.
    + assert (P k) by (apply E, B). split.
      * intros C. inversion C as [|? r' _ C'|? r' N C']; subst; [|contradiction]. apply IH in C'. cbn. lia.
      * intros ->. cbn [length]. rewrite Nat.add_1_r. constructor; [assumption|]. apply IH. reflexivity.
    + assert (~ P k) by (intros X; apply E in X; congruence). split.
      * intros C. inversion C as [|? r' X C'|? r' N C']; subst; [contradiction|]. apply IH in C'. cbn. lia.
      * intros ->. cbn [length]. rewrite Nat.add_0_r. constructor; [assumption|]. apply IH. reflexivity.
Qed.
Lemma sum_map_seq (f : nat -> R) n : sum_list (map f (seq 0 n)) = Rsum f n.
Proof.
  assert (K : forall l x, sum_list (l ++ [x]) = sum_list l + x) by (induction l as [|y l IHl]; intros x; cbn; [ring|]; change (fold_right Rplus 0 (l ++ [x])) with (sum_list (l ++ [x])); rewrite IHl; unfold sum_list; ring).
  induction n as [|n IH]; [reflexivity|]. rewrite seq_S, map_app. cbn [Rsum Nat.add map]. rewrite K, IH. reflexivity.
Qed.
Lemma assign_map {A} (b : nat -> bool) (block v : nat -> A) : forall n j row,
  assign (map b (seq j n)) block row (map v (seq j n)) = map (fun k => if b k then block (row + length (filter b (seq j (k - j))))%nat else v k) (seq j n).
Proof.
  induction n as [|n IH]; intros j row; [reflexivity|]. cbn [seq map assign].
  assert (T : forall r0, assign (map b (seq (S j) n)) block r0 (map v (seq (S j) n)) = map (fun k => if b k then block (r0 + length (filter b (seq (S j) (k - S j))))%nat else v k) (seq (S j) n)) by (intros r0; apply IH).
  assert (C : forall k, (S j <= k)%nat -> filter b (seq j (k - j)) = (if b j then [j] else []) ++ filter b (seq (S j) (k - S j))).
  { intros k Hk. replace (k - j)%nat with (S (k - S j)) by lia. cbn [seq filter]. destruct (b j); reflexivity. }
  destruct (b j) eqn:B.
  - rewrite Nat.sub_diag. cbn [seq filter length]. rewrite Nat.add_0_r. f_equal. rewrite T. apply map_ext_in. intros k Hk. apply in_seq in Hk. rewrite C by lia. cbn [app length].
    replace (row + S (length (filter b (seq (S j) (k - S j)))))%nat with (S row + length (filter b (seq (S j) (k - S j))))%nat by lia. reflexivity.
  - f_equal. rewrite T. apply map_ext_in. intros k Hk. apply in_seq in Hk. rewrite C by lia. reflexivity.
Qed.
Lemma combine_map_seq {A B} (f : nat -> A) (g : nat -> B) : forall n j, combine (map f (seq j n)) (map g (seq j n)) = map (fun k => (f k, g k)) (seq j n).
Proof. induction n as [|n IH]; intros j; [reflexivity|]. cbn. f_equal. apply IH. Qed.
Lemma nth_map_seq' {A} (f : nat -> A) n k d : (k < n)%nat -> nth k (map f (seq 0 n)) d = f k.
Proof. intros H. rewrite (nth_indep _ d (f 0%nat)) by (rewrite map_length, seq_length; exact H). rewrite map_nth, seq_nth by exact H. reflexivity. Qed.
Lemma list_as_map {A} (d : A) l : l = map (fun k => nth k l d) (seq 0 (length l)).
Proof.
  apply (nth_ext _ _ d d); [rewrite map_length, seq_length; reflexivity|]. intros i I. rewrite nth_map_seq' by exact I. reflexivity.
Qed.
Lemma set_map_seq {A} (f : nat -> A) (x : A) n t : set_nth t x (map f (seq 0 n)) = map (fun k => if Nat.eqb k t then x else f k) (seq 0 n).
Proof.
  enough (G : forall n j t, (j <= t)%nat -> set_nth (t - j) x (map f (seq j n)) = map (fun k => if Nat.eqb k t then x else f k) (seq j n)).
  { specialize (G n 0%nat t). rewrite Nat.sub_0_r in G. apply G. lia. }
  clear n t. induction n as [|n IH]; intros j t L; [cbn [seq map]; destruct (t - j)%nat; reflexivity|]. cbn [seq map set_nth]. destruct (Nat.eqb_spec j t) as [->|N].
  - rewrite Nat.sub_diag. cbn [set_nth]. f_equal. apply map_ext_in. intros k K. apply in_seq in K. destruct (Nat.eqb_spec k t); [lia|reflexivity].
  - replace (t - j)%nat with (S (t - S j)) by lia. cbn [set_nth]. f_equal. apply IH. lia.
Qed.
Lemma repeat_map {A} (x : A) n : repeat x n = map (fun _ => x) (seq 0 n).
Proof. generalize 0%nat. induction n as [|n IH]; intros j; [reflexivity|]. cbn. f_equal. apply IH. Qed.
Lemma existsb_seq (b : nat -> bool) n : existsb (fun x => x) (map b (seq 0 n)) = true <-> exists k, (k < n)%nat /\ b k = true.
Proof.
  rewrite existsb_exists. split.
  - intros (x & I & E). apply in_map_iff in I. destruct I as (k & <- & I). apply in_seq in I. exists k. split; [lia|exact E].
  - intros (k & I & E). exists (b k). split; [apply in_map, in_seq; lia|exact E].
Qed.

(** ** Areas and periods *)
Lemma areas_iff a w vs : noise_volumes a w = Ok vs <-> areas a w vs.
Proof.
  unfold noise_volumes, areas. set (draws := map (nd_volume w) (seq 0 (na_N a))).
  assert (SU : sum_list draws = Rsum (nd_volume w) (na_N a)) by apply sum_map_seq.
  destruct (String.eqb_spec (na_volumes a) "pareto") as [E|E]; [|destruct (String.eqb_spec (na_volumes a) "uniform") as [E'|E']].
  - split.
    + intros X. injection X as <-. split; [apply sort_ssorted|]. left. split; [exact E|apply sort_perm].
    + intros [S [[_ P]|[X _]]]; [|congruence]. f_equal. apply sorted_unique; [apply (perm_trans (Permutation_sym (sort_perm draws)) P)|apply sort_ssorted|exact S].
  - rewrite rbind_iff. split.
    + intros (v & X & Y). injection Y as <-. split; [apply sort_ssorted|]. right. split; [exact E'|].
      assert (V : v = map (fun k => nd_volume w k / Rsum (nd_volume w) (na_N a)) (seq 0 (na_N a)) /\ (na_N a <> 0%nat -> Rsum (nd_volume w) (na_N a) <> 0)).
      { rewrite SU in X. unfold draws in X. destruct (Req_EM_T (Rsum (nd_volume w) (na_N a)) 0) as [Z|Z].
        - destruct (na_N a) as [|n]; [cbn in X; injection X as <-; split; [reflexivity|contradiction]|].
          exfalso. revert X. apply (mapM_fail _ (nd_volume w 0)); [left; reflexivity|]. intros y Y. apply P_DW.fdiv_iff' in Y. tauto.
        - rewrite (mapM_pure _ (fun x => x / Rsum (nd_volume w) (na_N a))) in X by (intros x _; apply P_DW.fdiv_iff'; split; [exact Z|reflexivity]). injection X as <-. rewrite map_map. split; [reflexivity|intros _; exact Z]. }
      destruct V as [-> V]. split; [exact V|apply sort_perm].
    + intros [SS [[X _]|[_ [N P]]]]; [congruence|]. exists (map (fun k => nd_volume w k / Rsum (nd_volume w) (na_N a)) (seq 0 (na_N a))). split.
      * rewrite SU. unfold draws. destruct (na_N a) as [|n]; [reflexivity|]. assert (Z := N ltac:(discriminate)).
        rewrite (mapM_pure _ (fun x => x / Rsum (nd_volume w) (S n))) by (intros x _; apply P_DW.fdiv_iff'; split; [exact Z|reflexivity]). rewrite map_map. reflexivity.
      * f_equal. apply sorted_unique; [apply (perm_trans (Permutation_sym (sort_perm _)) P)|apply sort_ssorted|exact SS].
  - split; [discriminate|]. intros [_ [[X _]|[X _]]]; contradiction.
Qed.
Lemma areas_length a w vs : areas a w vs -> length vs = na_N a.
Proof. intros [_ [[_ P]|[_ [_ P]]]]; apply Permutation_length in P; rewrite map_length, seq_length in P; lia. Qed.
Lemma rev_nth' {A} (l : list A) d k : (k < length l)%nat -> nth k (rev l) d = nth (length l - 1 - k) l d.
Proof. intros H. rewrite rev_nth by exact H. f_equal. lia. Qed.
Lemma periods_iff a w vs fs : noise_freqs a w vs = Ok fs <-> periods a w vs fs.
Proof.
  unfold noise_freqs, periods. destruct (String.eqb_spec (na_freqs a) "functional") as [E|E]; [|destruct (String.eqb_spec (na_freqs a) "uniform") as [E'|E']].
  - rewrite rbind_iff. split.
    + intros (q & X & Y). injection Y as <-. left. split; [exact E|]. apply mapM_iff in X. assert (L := F2_length _ _ _ X).
      split; [rewrite map_length, rev_length, map_length; lia|]. intros k K.
      assert (KK : (length vs - 1 - k < length vs)%nat) by lia.
      assert (FQ : fdiv (na_frequency_scale a) (nth (length vs - 1 - k) vs 0) = Ok (nth (length vs - 1 - k) q 0)).
      { clear - X KK. revert KK. generalize (length vs - 1 - k)%nat. induction X as [|x y vs q H X IH]; intros i I; cbn in *; [lia|]. destruct i; [exact H|]. apply IH. lia. }
      apply P_DW.fdiv_iff' in FQ. destruct FQ as [NZ FQ]. split; [exact NZ|]. rewrite <- FQ.
      rewrite (nth_indep _ 0%Z ((fun z => (z + 1)%Z) 0%Z)) by (rewrite map_length, rev_length, map_length; lia). rewrite (map_nth (fun z => (z + 1)%Z)).
      rewrite rev_nth' by (rewrite map_length; lia). rewrite map_length. rewrite (nth_indep _ 0%Z (ztrunc 0)) by (rewrite map_length; lia). rewrite map_nth.
      apply ztrunc_iff. rewrite L. lia.
    + intros [(_ & L & F)|[X _]]; [|congruence]. exists (map (fun v => na_frequency_scale a / v) vs). split.
      * apply mapM_pure. intros v I. apply P_DW.fdiv_iff'. split; [|reflexivity]. apply (In_nth _ _ 0) in I. destruct I as (i & I & <-). destruct (F (length vs - 1 - i)%nat ltac:(lia)) as [NZ _].
        replace (length vs - 1 - (length vs - 1 - i))%nat with i in NZ by lia. exact NZ.
      * f_equal. apply (nth_ext _ _ 0%Z 0%Z); [rewrite map_length, rev_length, !map_length; lia|]. intros k K. rewrite map_length, rev_length, !map_length in K.
        rewrite (nth_indep _ 0%Z ((fun z => (z + 1)%Z) 0%Z)) by (rewrite map_length, rev_length, !map_length; lia). rewrite (map_nth (fun z => (z + 1)%Z)).
        rewrite rev_nth' by (rewrite !map_length; lia). rewrite !map_length. rewrite map_map. rewrite (nth_indep _ 0%Z (ztrunc (na_frequency_scale a / 0))) by (rewrite map_length; lia).
        rewrite (map_nth (fun v => ztrunc (na_frequency_scale a / v))). destruct (F k K) as [_ W]. apply ztrunc_iff in W. rewrite W. lia.
  - split.
    + intros X. injection X as <-. right. split; [exact E'|]. split; [rewrite map_length, seq_length; reflexivity|]. intros k K. apply nth_map_seq', K.
    + intros [[X _]|(_ & L & F)]; [congruence|]. f_equal. rewrite (list_as_map 0%Z fs), L. apply map_ext_in. intros k K. apply in_seq in K. symmetry. apply F. lia.
  - split; [discriminate|]. intros [[X _]|[X _]]; contradiction.
Qed.
Lemma periods_length a w vs fs : length vs = na_N a -> periods a w vs fs -> length fs = na_N a.
Proof. intros L [(_ & X & _)|(_ & X & _)]; congruence. Qed.

(** ** The loop *)
Section Loop.
Context (a : noise_args) (w : noise_draws) (vs : list R) (fs : list Z) (osc : nat -> Z -> R) (n : nat).
Let N := na_N a.
Let D := na_dims a.
Definition rb (t k : nat) : bool := np_divides (na_offset a + Z.of_nat t) (nth k fs 0%Z + nd_disturbance w t k).
Definition rank (t k : nat) : nat := length (filter (rb t) (seq 0 k)).
Fixpoint Vf (t k d : nat) : R :=
  match t with
  | O => nd_start w k d
  | S t' => if rb t' k then na_thermal a * nd_normal w t' (rank t' k) d else Vf t' k d
  end.
Definition anyb (t : nat) : bool := existsb (fun b => b) (map (rb t) (seq 0 N)).
Definition addend (t : nat) : R := osc t (na_offset a + Z.of_nat t)%Z.
Fixpoint Mf (t d : nat) : R :=
  match t with
  | O => 0
  | S t' => if anyb t' then Rsum (fun k => nth k vs 0 * Vf (S t') k d) N + addend t' else Mf t' d + addend t'
  end.
Definition vectors_at (t : nat) : list (list R) := map (fun k => map (Vf t k) (seq 0 D)) (seq 0 N).
Definition state_at (t : nat) : noise_state :=
  NState (vectors_at t)
         (map (fun j => if Nat.ltb j t then map (Mf (S j)) (seq 0 D) else map (fun _ => 0) (seq 0 D)) (seq 0 n))
         (map (fun k => Z.of_nat (length (filter (fun s => rb s k) (seq 0 t)))) (seq 0 N))
         (if na_save a then map (fun j => vectors_at (S j)) (seq 0 t) else []).
Lemma mask_eq t : length fs = N -> map (fun p => np_divides (na_offset a + Z.of_nat t) (fst p + snd p)) (combine fs (map (nd_disturbance w t) (seq 0 N))) = map (rb t) (seq 0 N).
Proof. intros L. rewrite (list_as_map 0%Z fs), L, combine_map_seq, map_map. reflexivity. Qed.
Lemma step_at t : length fs = N -> length vs = N -> (t < n)%nat -> 0 <= na_thermal a \/ anyb t = false ->
  noise_step a w vs fs (Some osc) t (state_at t) = Ok (state_at (S t)).
Proof.
  intros LF LV T TH. unfold noise_step. fold N D. rewrite (mask_eq t LF). cbn [ns_counts ns_m ns_vectors ns_saved state_at].
  rewrite combine_map_seq, map_map. cbn [fst snd]. fold (anyb t) (addend t).
  assert (CN : map (fun k => if rb t k then (Z.of_nat (length (filter (fun s => rb s k) (seq 0 t))) + 1)%Z else Z.of_nat (length (filter (fun s => rb s k) (seq 0 t)))) (seq 0 N) =
               map (fun k => Z.of_nat (length (filter (fun s => rb s k) (seq 0 (S t))))) (seq 0 N)).
  { apply map_ext. intros k. rewrite seq_S, filter_app, app_length. cbn [Nat.add filter]. destruct (rb t k); cbn [length]; lia. }
  rewrite CN.
  assert (NT : nth t (map (fun j => if Nat.ltb j t then map (Mf (S j)) (seq 0 D) else map (fun _ => 0) (seq 0 D)) (seq 0 n)) [] = map (fun _ => 0) (seq 0 D)).
  { rewrite nth_map_seq' by exact T. rewrite Nat.ltb_irrefl. reflexivity. }
  assert (UP : forall row, row = map (Mf (S t)) (seq 0 D) -> set_nth t row (map (fun j => if Nat.ltb j t then map (Mf (S j)) (seq 0 D) else map (fun _ => 0) (seq 0 D)) (seq 0 n)) =
               map (fun j => if Nat.ltb j (S t) then map (Mf (S j)) (seq 0 D) else map (fun _ => 0) (seq 0 D)) (seq 0 n)).
  { intros row ->. rewrite set_map_seq. apply map_ext. intros j. destruct (Nat.eqb_spec j t) as [->|NE].
    - rewrite (proj2 (Nat.ltb_lt t (S t))) by lia. reflexivity.
    - destruct (Nat.ltb_spec j t); destruct (Nat.ltb_spec j (S t)); try lia; reflexivity. }
  destruct (anyb t) eqn:ANY.
  - destruct (Rlt_dec (na_thermal a) 0) as [NEG|_]; [destruct TH; [lra|discriminate]|].
    assert (VE : assign (map (rb t) (seq 0 N)) (fun r => map (fun d => na_thermal a * nd_normal w t r d) (seq 0 D)) 0 (vectors_at t) = vectors_at (S t)).
    { unfold vectors_at. rewrite assign_map. apply map_ext. intros k. rewrite Nat.sub_0_r. cbn [Nat.add Vf]. fold (rank t k). destruct (rb t k); reflexivity. }
    rewrite VE. f_equal. unfold state_at. f_equal.
    + apply UP. rewrite NT. unfold weighted_sum. rewrite combine_map_seq, map_map. apply map_ext_in. intros d Hd. apply in_seq in Hd. cbn [fst snd Mf]. rewrite ANY.
      assert (CV : combine vs (vectors_at (S t)) = map (fun k => (nth k vs 0, map (Vf (S t) k) (seq 0 D))) (seq 0 N)).
      { unfold vectors_at. rewrite <- combine_map_seq. f_equal. rewrite <- LV. apply list_as_map. }
      rewrite CV, map_map. cbn [fst snd]. rewrite Rplus_0_l. f_equal. rewrite sum_map_seq. apply P_Noise.Rsum_ext. intros k K. f_equal. apply nth_map_seq'. lia.
    + destruct (na_save a); [|reflexivity]. rewrite seq_S, map_app. reflexivity.
  - assert (VE : vectors_at t = vectors_at (S t)).
    { unfold vectors_at. apply map_ext_in. intros k K. apply in_seq in K. cbn [Vf].
      assert (B : rb t k = false). { destruct (rb t k) eqn:B; [|reflexivity]. assert (X : anyb t = true) by (apply existsb_seq; exists k; split; [lia|exact B]). congruence. }
      rewrite B. reflexivity. }
    f_equal. unfold state_at. f_equal.
    + exact VE.
    + apply UP. destruct (Nat.eqb_spec t 0) as [->|NE].
      * rewrite map_length, seq_length. rewrite nth_map_seq' by lia. cbn [Nat.ltb Nat.leb]. rewrite map_map. apply map_ext. intros d. cbn [Mf]. rewrite ANY. ring.
      * rewrite nth_map_seq' by lia. rewrite (proj2 (Nat.ltb_lt _ _)) by lia. rewrite map_map. apply map_ext. intros d. replace (S (t - 1)) with t by lia. cbn [Mf]. rewrite ANY. ring.
    + destruct (na_save a); [|reflexivity]. rewrite seq_S, map_app. cbn [map Nat.add]. rewrite VE. reflexivity.
Qed.
Lemma step_fails t : length fs = N -> anyb t = true -> na_thermal a < 0 -> forall s, noise_step a w vs fs (Some osc) t s = Err (Throw "scale < 0").
Proof.
  intros LF A T s. unfold noise_step. fold N D. rewrite (mask_eq t LF). fold (anyb t). rewrite A. destruct (Rlt_dec (na_thermal a) 0); [reflexivity|contradiction].
Qed.
Lemma loop_at : length fs = N -> length vs = N -> forall k t, (t + k <= n)%nat -> (0 <= na_thermal a \/ forall j, (t <= j < t + k)%nat -> anyb j = false) ->
  noise_loop (noise_step a w vs fs (Some osc)) t k (state_at t) = Ok (state_at (t + k)).
Proof.
  intros LF LV k. induction k as [|k IH]; intros t T H; cbn [noise_loop]; [rewrite Nat.add_0_r; reflexivity|].
  rewrite (step_at LF LV) by first [lia|destruct H as [H|H]; [left; exact H|right; apply H; lia]]. cbn [rbind]. replace (t + S k)%nat with (S t + k)%nat by lia.
  apply IH; [lia|]. destruct H as [H|H]; [left; exact H|right; intros j J; apply H; lia].
Qed.
Lemma loop_thermal : length fs = N -> length vs = N -> forall k t s,
  (exists s', noise_loop (noise_step a w vs fs (Some osc)) t k s = Ok s') -> 0 <= na_thermal a \/ forall j, (t <= j < t + k)%nat -> anyb j = false.
Proof.
  intros LF LV k. induction k as [|k IH]; intros t s (s' & E); [right; intros; lia|]. destruct (Rle_dec 0 (na_thermal a)) as [L|L]; [left; exact L|].
  cbn [noise_loop] in E. apply rbind_inv in E. destruct E as (s1 & E1 & E2).
  assert (B : anyb t = false). { destruct (anyb t) eqn:B; [|reflexivity]. rewrite (step_fails t LF B) in E1 by lra. discriminate. }
  destruct (IH (S t) s1) as [X|X]; [exists s'; exact E2|left; exact X|].
  right. intros j J. destruct (Nat.eq_dec j t) as [->|]; [exact B|apply X; lia].
Qed.
Lemma renewed_iff t k : rb t k = true <-> renewed a w fs t k.
Proof. apply divides_iff. Qed.
Lemma anyb_iff t : anyb t = true <-> exists k, (k < N)%nat /\ renewed a w fs t k.
Proof.
  unfold anyb. rewrite existsb_seq. split; intros (k & K & X); exists k; (split; [exact K|]); apply renewed_iff, X.
Qed.
Lemma anyb_none t : anyb t = false <-> forall k, (k < N)%nat -> ~ renewed a w fs t k.
Proof.
  split.
  - intros E k K X. assert (anyb t = true) by (apply anyb_iff; exists k; split; assumption). congruence.
  - intros H. destruct (anyb t) eqn:E; [|reflexivity]. apply anyb_iff in E. destruct E as (k & K & X). exfalso. exact (H k K X).
Qed.
Lemma history_holds : (forall t x, disturbance_of a w t x -> x = addend t) -> forall m, domain_history a w vs fs m Vf Mf.
Proof.
  intros HO m. split; [reflexivity|]. split; [reflexivity|]. intros t d T HD. split.
  - intros k K. split.
    + intros r RN CB. apply (count_iff _ (rb t) (renewed_iff t)) in CB. cbn [Vf]. apply renewed_iff in RN. rewrite RN, CB. reflexivity.
    + intros NR. cbn [Vf]. destruct (rb t k) eqn:B; [apply renewed_iff in B; contradiction|reflexivity].
  - intros x HX. apply HO in HX. subst x. split.
    + intros E. apply anyb_iff in E. cbn [Mf]. rewrite E. reflexivity.
    + intros E. apply anyb_none in E. cbn [Mf]. rewrite E. reflexivity.
Qed.
Lemma history_unique V M m : (forall t, disturbance_of a w t (addend t)) -> domain_history a w vs fs m V M -> forall t d, (t <= m)%nat -> (d < D)%nat ->
  M t d = Mf t d /\ forall k, (k < N)%nat -> V t k d = Vf t k d.
Proof.
  intros HO (V0 & M0 & ST) t d. induction t as [|t IH]; intros T HD.
  - split; [apply M0, HD|]. intros k K. apply V0; assumption.
  - destruct (IH ltac:(lia) HD) as [IM IV]. destruct (ST t d ltac:(lia) HD) as [SV SM].
    assert (HV : forall k, (k < N)%nat -> V (S t) k d = Vf (S t) k d).
    { intros k K. destruct (SV k K) as [A1 A2]. cbn [Vf]. destruct (rb t k) eqn:B.
      - apply A1; [apply renewed_iff, B|]. apply (count_iff _ (rb t) (renewed_iff t)). reflexivity.
      - rewrite A2; [apply IV, K|]. intros X. apply renewed_iff in X. congruence. }
    split; [|exact HV]. destruct (SM _ (HO t)) as [A1 A2]. cbn [Mf]. destruct (anyb t) eqn:B.
    + apply anyb_iff in B. rewrite (A1 B). f_equal. apply P_Noise.Rsum_ext. intros k K. rewrite HV by exact K. reflexivity.
    + assert (B2 := proj1 (anyb_none t) B). rewrite (A2 B2), IM. reflexivity.
Qed.
End Loop.

(** ** The whole call *)
Definition osc_of (a : noise_args) (w : noise_draws) : nat -> Z -> R := if na_oscillations a then oscillations a w else background_noise a w.
Lemma osc_disturbance a w t x : disturbance_of a w t x <-> x = osc_of a w t (na_offset a + Z.of_nat t)%Z.
Proof.
  unfold disturbance_of, osc_of. destruct (na_oscillations a).
  - unfold oscillations. rewrite sum_map_seq.
    assert (E : Rsum (fun p => na_amplitude a * sin (2 * PI * nd_fosc w p * IZR (na_offset a + Z.of_nat t) * na_time_scale a + Rmax 0 (na_phase_std a) * nd_phase w p)) (na_background_scale a * na_N a) =
                Rsum (fun p => na_amplitude a * sin (2 * PI * nd_fosc w p * IZR (na_offset a + Z.of_nat t) * na_time_scale a + noise_phase a w p)) (na_background_scale a * na_N a)).
    { apply P_Noise.Rsum_ext. intros p _. do 3 f_equal. unfold noise_phase, Rmax. destruct (Rle_dec 0 (na_phase_std a)); destruct (Rlt_dec 0 (na_phase_std a)); try lra; try ring.
      assert (na_phase_std a = 0) by lra. rewrite H. ring. }
    rewrite <- E. split; [intros [[_ H]|[H _]]; [exact H|discriminate]|intros ->; left; split; reflexivity].
  - unfold background_noise. rewrite sum_map_seq. rewrite (P_Noise.Rsum_scal (na_background a) (nd_background w t)). split; [intros [[H _]|[_ H]]; [discriminate|exact H]|intros ->; right; split; reflexivity].
Qed.
Lemma start_state a w fs n vs osc : NState (map (fun k => map (nd_start w k) (seq 0 (na_dims a))) (seq 0 (na_N a))) (repeat (repeat 0 (na_dims a)) n) (repeat 0%Z (na_N a)) [] = state_at a w vs fs osc n 0.
Proof. unfold state_at. rewrite !repeat_map. f_equal. destruct (na_save a); reflexivity. Qed.
Lemma state_m a w vs fs osc n : ns_m (state_at a w vs fs osc n n) = map (fun t => map (Mf a w vs fs osc (S t)) (seq 0 (na_dims a))) (seq 0 n).
Proof. unfold state_at. cbn [ns_m]. apply map_ext_in. intros j J. apply in_seq in J. rewrite (proj2 (Nat.ltb_lt _ _)) by lia. reflexivity. Qed.
Lemma noise_value a w vs fs n : areas a w vs -> periods a w vs fs -> noise_allowed a w fs n -> whole_part (na_steps a) (Z.of_nat n) ->
  noise_model a w = Ok (NOut (map (fun t => map (Mf a w vs fs (osc_of a w) (S t)) (seq 0 (na_dims a))) (seq 0 n)) vs fs (na_time_scale a)
    (map (fun k => Z.of_nat (length (filter (fun s => rb a w fs s k) (seq 0 n)))) (seq 0 (na_N a)))
    (if na_save a then Some (map (fun j => vectors_at a w fs (S j)) (seq 0 n)) else None)).
Proof.
  intros HA HP (NB & SOME & TH) HN. unfold noise_model. rewrite (proj2 (areas_iff a w vs) HA). cbn [rbind]. rewrite (proj2 (periods_iff a w vs fs) HP). cbn [rbind].
  apply ztrunc_iff in HN. rewrite HN. destruct (Z.ltb_spec (Z.of_nat n) 0); [lia|]. rewrite Nat2Z.id.
  assert (LV := areas_length HA). assert (LF := periods_length LV HP).
  assert (X : (na_oscillations a && (if Rlt_dec 0 (na_background a) then true else false))%bool = false).
  { destruct (na_oscillations a); [|reflexivity]. destruct (Rlt_dec 0 (na_background a)) as [B|B]; [exfalso; apply NB; split; [reflexivity|exact B]|reflexivity]. }
  rewrite X. rewrite (start_state a w fs n vs (osc_of a w)).
  assert (TH' : 0 <= na_thermal a \/ forall j, (0 <= j < 0 + n)%nat -> anyb a w fs j = false).
  { destruct TH as [TH|TH]; [left; exact TH|right]. intros j J. apply anyb_none. intros k K. apply TH; [lia|exact K]. }
  assert (L := @loop_at a w vs fs (osc_of a w) n LF LV n 0 (le_n _) TH').
  destruct n as [|n'].
  - cbn [noise_loop rbind]. rewrite state_m. cbn. destruct (na_save a); reflexivity.
  - assert (O : (if na_oscillations a then Some (oscillations a w) else if (if Rlt_dec 0 (na_background a) then true else false) then Some (background_noise a w) else None) = Some (osc_of a w)).
    { unfold osc_of. destruct (na_oscillations a); [reflexivity|]. destruct SOME as [Y|[Y|Y]]; [discriminate|discriminate|]. destruct (Rlt_dec 0 (na_background a)); [reflexivity|contradiction]. }
    rewrite O. cbn [Nat.add] in L. rewrite L. cbn [rbind]. rewrite state_m. cbn [ns_counts ns_saved state_at]. destruct (na_save a); reflexivity.
Qed.
Lemma noise_sound a w o : noise_model a w = Ok o -> exists n, areas a w (no_volumes o) /\ periods a w (no_volumes o) (no_freqs o) /\ noise_allowed a w (no_freqs o) n /\ whole_part (na_steps a) (Z.of_nat n).
Proof.
  intros E. unfold noise_model in E. apply rbind_inv in E. destruct E as (vs & E1 & E). apply rbind_inv in E. destruct E as (fs & E2 & E).
  apply areas_iff in E1. apply periods_iff in E2. assert (LV := areas_length E1). assert (LF := periods_length LV E2).
  destruct (Z.ltb_spec (ztrunc (na_steps a)) 0) as [NEG|POS]; [discriminate|]. exists (Z.to_nat (ztrunc (na_steps a))).
  destruct (Rlt_dec 0 (na_background a)) as [B|B]; destruct (na_oscillations a) eqn:O; cbn [andb] in E; try discriminate;
    apply rbind_inv in E; destruct E as (s & E3 & E); injection E as <-; cbn [no_volumes no_freqs];
    (split; [exact E1|]); (split; [exact E2|]); (split; [|rewrite Z2Nat.id by exact POS; apply ztrunc_iff; reflexivity]); unfold noise_allowed; rewrite O.
  - split; [intros [X _]; discriminate|]. split; [right; right; exact B|].
    destruct (@loop_thermal a w vs fs _ LF LV _ _ _ (ex_intro _ s E3)) as [X|X]; [left; exact X|right]. intros t k T K. apply (proj1 (anyb_none a w fs t)); [apply X; lia|exact K].
  - split; [intros [_ X]; contradiction|]. split; [right; left; reflexivity|].
    destruct (@loop_thermal a w vs fs _ LF LV _ _ _ (ex_intro _ s E3)) as [X|X]; [left; exact X|right]. intros t k T K. apply (proj1 (anyb_none a w fs t)); [apply X; lia|exact K].
  - split; [intros [X _]; discriminate|]. destruct (Z.to_nat (ztrunc (na_steps a))) as [|n'] eqn:L; [|discriminate]. split; [left; reflexivity|]. right. intros; lia.
Qed.
Lemma noise_iff a w o : noise_model a w = Ok o <-> noise_result a w o.
Proof.
  split.
  - intros E. destruct (noise_sound a w E) as (n & HA & HP & AL & HN). rewrite (noise_value HA HP AL HN) in E.
    exists n, (Vf a w (no_freqs o)), (Mf a w (no_volumes o) (no_freqs o) (osc_of a w)). 
    split; [exact HN|]. split; [exact HA|]. split; [exact HP|]. split; [exact AL|].
    split; [apply history_holds; intros t x; apply osc_disturbance|].
    assert (E' : o = NOut (map (fun t => map (Mf a w (no_volumes o) (no_freqs o) (osc_of a w) (S t)) (seq 0 (na_dims a))) (seq 0 n)) (no_volumes o) (no_freqs o) (na_time_scale a)
    (map (fun k => Z.of_nat (length (filter (fun s => rb a w (no_freqs o) s k) (seq 0 n)))) (seq 0 (na_N a)))
    (if na_save a then Some (map (fun j => vectors_at a w (no_freqs o) (S j)) (seq 0 n)) else None)) by congruence.
    split; [apply (f_equal no_m) in E'; exact E'|]. split; [apply (f_equal no_time_scale) in E'; exact E'|].
    apply (f_equal no_counts) in E' as EC. cbn [no_counts] in EC. split; [rewrite EC, map_length, seq_length; reflexivity|].
    split.
    + intros k K. exists (length (filter (fun s => rb a w (no_freqs o) s k) (seq 0 n))). split; [rewrite EC; rewrite nth_map_seq' by exact K; reflexivity|]. apply (count_iff _ (fun s => rb a w (no_freqs o) s k) (fun s => renewed_iff a w (no_freqs o) s k)). reflexivity.
    + apply (f_equal no_vectors) in E'. exact E'.
  - intros (n & V & M & HN & HA & HP & AL & HH & EM & ET & LC & EC & EV). rewrite (noise_value HA HP AL HN). f_equal. destruct o as [m vs fs ts cs sv]. cbn [no_m no_volumes no_freqs no_time_scale no_counts no_vectors] in *.
    assert (U := @history_unique a w vs fs (osc_of a w) V M n (fun t => proj2 (osc_disturbance a w t _) eq_refl) HH).
    subst m ts sv. f_equal.
    + apply map_ext_in. intros t T. apply in_seq in T. apply map_ext_in. intros d HD. apply in_seq in HD. symmetry. apply U; lia.
    + rewrite (list_as_map 0%Z cs), LC. apply map_ext_in. intros k K. apply in_seq in K. destruct (EC k ltac:(lia)) as (c & -> & CB).
      apply (count_iff _ (fun s => rb a w fs s k) (fun s => renewed_iff a w fs s k)) in CB. rewrite CB. reflexivity.
    + destruct (na_save a); [|reflexivity]. f_equal. apply map_ext_in. intros t T. apply in_seq in T. unfold vectors_at. apply map_ext_in. intros k K. apply in_seq in K.
      apply map_ext_in. intros d HD. apply in_seq in HD. symmetry. apply U; lia.
Qed.
