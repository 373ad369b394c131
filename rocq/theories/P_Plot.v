(** Proofs about the geometry of the figures. *)
From Verif Require Import P_Geom P_PyUtils P_Resist P_Fit.
From Verif Require Export S_Plot.
From Coq Require Import Psatz Sorted Permutation.
Open Scope R_scope.
Open Scope st_scope.

(** ** The sphere *)
Lemma sphere_unit i j : len2 (sphere_point i j) = 1.
Proof.
  unfold len2, sphere_point. cbn [cx cy cz]. set (p := INR i * (PI / 99)). set (t := INR j * (2 * PI / 99)).
  assert (A := sin2_cos2 p). assert (B := sin2_cos2 t). unfold Rsqr in A, B.
  replace (sin p * cos t * (sin p * cos t) + sin p * sin t * (sin p * sin t) + cos p * cos p) with (sin p * sin p * (sin t * sin t + cos t * cos t) + cos p * cos p) by ring. rewrite B. lra.
Qed.
Lemma sphere_grid i j row p : nth_error get_sphere i = Some row -> nth_error row j = Some p -> (i < 100)%nat /\ (j < 100)%nat /\ p = sphere_point i j.
Proof.
  unfold get_sphere. intros A B. assert (I : nth_error (map (fun i => map (sphere_point i) (seq 0 100)) (seq 0 100)) i <> None) by (intros Z; rewrite Z in A; discriminate). apply nth_error_Some in I. rewrite map_length, seq_length in I.
  rewrite (map_nth_error _ i (seq 0 100) (d := i)) in A by (rewrite (nth_error_nth' _ 0%nat) by (rewrite seq_length; exact I); rewrite seq_nth by exact I; reflexivity). apply (f_equal (fun o => match o with Some v => v | None => row end)) in A. cbv beta iota in A. subst row.
  assert (J : nth_error (map (sphere_point i) (seq 0 100)) j <> None) by (intros Z; rewrite Z in B; discriminate). apply nth_error_Some in J. rewrite map_length, seq_length in J.
  rewrite (map_nth_error _ j (seq 0 100) (d := j)) in B by (rewrite (nth_error_nth' _ 0%nat) by (rewrite seq_length; exact J); rewrite seq_nth by exact J; reflexivity). apply (f_equal (fun o => match o with Some v => v | None => p end)) in B. cbv beta iota in B. auto.
Qed.
Lemma sphere_all i j : (i < 100)%nat -> (j < 100)%nat -> exists row, nth_error get_sphere i = Some row /\ nth_error row j = Some (sphere_point i j).
Proof.
  intros I J. exists (map (sphere_point i) (seq 0 100)). unfold get_sphere. split.
  - apply (map_nth_error (fun i => map (sphere_point i) (seq 0 100))). rewrite (nth_error_nth' _ 0%nat) by (rewrite seq_length; exact I). rewrite seq_nth by exact I. reflexivity.
  - apply map_nth_error. rewrite (nth_error_nth' _ 0%nat) by (rewrite seq_length; exact J). rewrite seq_nth by exact J. reflexivity.
Qed.
Lemma sphere_seam i j : sphere_point i 0 = sphere_point i 99 /\ sphere_point 0 j = CV 0 0 1 /\ sphere_point 99 j = CV 0 0 (-1).
Proof.
  assert (N : INR 99 = 99) by (rewrite INR_IZR_INZ; reflexivity).
  unfold sphere_point. rewrite N. cbn [INR]. replace (99 * (2 * PI / 99)) with (2 * PI) by field. replace (99 * (PI / 99)) with PI by field. rewrite !Rmult_0_l, sin_0, cos_0, sin_2PI, cos_2PI, sin_PI, cos_PI. repeat split; f_equal; ring.
Qed.

(** ** Trajectories *)
Lemma points3_iff x : forall y z ps, length x = length y -> length y = length z -> (points3 x y z = ps <-> coordinates x y z ps).
Proof.
  unfold coordinates. induction x as [|a x IH]; intros [|b y] [|c z] ps L M; try discriminate; cbn [points3].
  - split; [intros <-; auto|intros (E & _); destruct ps; [reflexivity|discriminate]].
  - cbn in L, M. split.
    + intros <-. destruct (proj1 (IH y z _ ltac:(lia) ltac:(lia)) eq_refl) as (A & B & C). cbn. rewrite <- A, <- B, <- C. auto.
    + intros (A & B & C). destruct ps as [|[p q r] ps]; [discriminate|]. cbn in A, B, C. injection A as -> A. injection B as -> B. injection C as -> C. f_equal. apply IH; [lia|lia|auto].
Qed.
Lemma coordinates_length x y z ps : coordinates x y z ps -> length x = length ps /\ length y = length ps /\ length z = length ps.
Proof. intros (-> & -> & ->). rewrite !map_length. auto. Qed.
Lemma coordinates_guard x y z : (Nat.eqb (length x) (length y) && Nat.eqb (length y) (length z))%bool = true <-> exists ps, coordinates x y z ps.
Proof.
  rewrite Bool.andb_true_iff, !Nat.eqb_eq. split.
  - intros [L M]. exists (points3 x y z). apply points3_iff; auto.
  - intros [ps C]. apply coordinates_length in C. lia.
Qed.
Lemma coordinates_points x y z ps : coordinates x y z ps -> points3 x y z = ps.
Proof. intros C. destruct (coordinates_length _ _ _ _ C) as (A & B & D). apply points3_iff; [lia|lia|exact C]. Qed.
Lemma norm_sum ps : fold_right (fun p acc => cx p ^ 2 + cy p ^ 2 + cz p ^ 2 + acc) 0 ps = sum_len2 ps.
Proof. unfold sum_len2. induction ps as [|p ps IH]; cbn [fold_right map]; [reflexivity|]. rewrite IH. unfold len2. ring. Qed.
Lemma len2_pos p : 0 <= len2 p.
Proof. unfold len2. nra. Qed.
Lemma sum_pos ps : 0 <= sum_len2 ps.
Proof. unfold sum_len2. induction ps as [|p ps IH]; cbn; [lra|]. assert (H := len2_pos p). lra. Qed.
Lemma fdiv_iff a b q : fdiv a b = Ok q <-> b <> 0 /\ q = a / b.
Proof. unfold fdiv. destruct (Req_EM_T b 0); split; try discriminate; try (intros [? _]; contradiction); [intros E; injection E as <-; auto|intros [_ ->]; reflexivity]. Qed.
Lemma trajectory_iff x y z out : plot_trajectory_sphere x y z = Ok out <->
  exists ps, coordinates x y z ps /\ (ps = [] \/ sum_len2 ps <> 0) /\ out = map (shrink (1 / sqrt (sum_len2 ps))) ps.
Proof.
  unfold plot_trajectory_sphere. destruct (Nat.eqb (length x) (length y) && Nat.eqb (length y) (length z))%bool eqn:G.
  - apply coordinates_guard in G. destruct G as [ps C]. cbv zeta. rewrite (coordinates_points _ _ _ _ C), norm_sum. set (k := sqrt (sum_len2 ps)).
    assert (K : k = 0 <-> sum_len2 ps = 0) by (unfold k; split; [intros E; apply sqrt_eq_0; [apply sum_pos|exact E]|intros ->; apply sqrt_0]).
    assert (STEP : forall p q, (a <-- fdiv (cx p) k ;; b <-- fdiv (cy p) k ;; c <-- fdiv (cz p) k ;; Ok (CV a b c)) = Ok q <-> k <> 0 /\ q = shrink (1 / k) p).
    { intros p q. unfold fdiv. destruct (Req_EM_T k 0) as [E|E]; cbn [rbind]; [split; [discriminate|intros [? _]; contradiction]|]. unfold shrink. split; [intros H; injection H as <-; split; [exact E|f_equal; field; exact E]|intros [_ ->]; f_equal; f_equal; field; exact E]. }
    rewrite rmap_iff. split.
    + intros F. exists ps. split; [exact C|]. destruct ps as [|p ps]; [inversion F; auto|]. split.
      * right. intros E. apply K in E. inversion F as [|? ? ? ? F1 _]; subst. apply STEP in F1. tauto.
      * change (1 / sqrt (sum_len2 (p :: ps))) with (1 / k). clear C K. clearbody k. induction F as [|a b l m H F IH]; [reflexivity|]. apply STEP in H. destruct H as [_ ->]. cbn. f_equal. exact IH.
    + intros (qs & C' & D & ->). assert (E : qs = ps) by (rewrite <- (coordinates_points _ _ _ _ C), <- (coordinates_points _ _ _ _ C'); reflexivity). subst qs. fold k. destruct D as [->|D]; [constructor|].
      assert (KN : k <> 0) by (intros E; apply K in E; contradiction). clear C C' D K. clearbody k. induction ps as [|p l IH]; cbn; constructor; [apply STEP; auto|exact IH].
  - split; [discriminate|]. intros (ps & C & _). exfalso. assert (T := proj2 (coordinates_guard x y z) (ex_intro _ ps C)). congruence.
Qed.
Lemma sum_const ps rho : (forall p, In p ps -> len2 p = rho) -> sum_len2 ps = INR (length ps) * rho.
Proof.
  unfold sum_len2. induction ps as [|p ps IH]; intros H; [cbn; ring|]. cbn [map fold_right length]. rewrite S_INR, IH by (intros; apply H; right; assumption). rewrite (H p (or_introl eq_refl)). ring.
Qed.
Lemma len2_shrink k p : len2 (shrink k p) = k * k * len2 p.
Proof. unfold len2, shrink. cbn. ring. Qed.
Lemma trajectory_radius x y z ps out rho : coordinates x y z ps -> plot_trajectory_sphere x y z = Ok out -> 0 < rho -> (forall p, In p ps -> len2 p = rho) ->
  forall q, In q out -> len2 q = 1 / INR (length ps).
Proof.
  intros C E R H q Q. apply trajectory_iff in E. destruct E as (ps' & C' & _ & ->). assert (X : ps' = ps) by (rewrite <- (coordinates_points _ _ _ _ C), <- (coordinates_points _ _ _ _ C'); reflexivity). subst ps'.
  apply in_map_iff in Q. destruct Q as (p & <- & P). rewrite len2_shrink, (H p P), (sum_const ps rho H). assert (N : (0 < length ps)%nat) by (destruct ps; [destruct P|cbn; lia]). apply lt_0_INR in N.
  assert (S : 0 < INR (length ps) * rho) by (apply Rmult_lt_0_compat; assumption). replace (1 / sqrt (INR (length ps) * rho) * (1 / sqrt (INR (length ps) * rho)) * rho) with (rho / (sqrt (INR (length ps) * rho) * sqrt (INR (length ps) * rho))) by (field; intros Z; apply sqrt_eq_0 in Z; lra).
  rewrite sqrt_sqrt by lra. field. split; lra.
Qed.
Lemma combine_shift {A} (l : list A) k d : nth_error (combine (removelast l) (tl l)) k = if Nat.ltb (S k) (length l) then Some (nth k l d, nth (S k) l d) else None.
Proof.
  revert k. induction l as [|a l IH]; intros k; [destruct k; reflexivity|]. destruct l as [|b l]; [destruct k; reflexivity|]. cbn [removelast tl combine]. destruct k as [|k]; [reflexivity|]. cbn [nth_error]. specialize (IH k). cbn [tl] in IH.
  change (nth_error (combine (removelast (b :: l)) l) k = (if Nat.ltb (S (S k)) (length (a :: b :: l)) then Some (nth (S k) (a :: b :: l) d, nth (S (S k)) (a :: b :: l) d) else None)). rewrite IH. reflexivity.
Qed.
Lemma same_places {A} (l : list A) : forall m, (forall k, nth_error l k = nth_error m k) -> l = m.
Proof.
  induction l as [|a l IH]; intros [|b m] H; [reflexivity|specialize (H 0%nat); discriminate|specialize (H 0%nat); discriminate|].
  assert (E := H 0%nat). cbn in E. injection E as ->. f_equal. apply IH. intros k. exact (H (S k)).
Qed.
Lemma coloured_iff x y z segs : plot_coloured_trajectory x y z = Ok segs <-> exists ps, coordinates x y z ps /\ length segs = (length ps - 1)%nat /\
  forall k p q, nth_error segs k = Some (p, q) <-> nth_error ps k = Some p /\ nth_error ps (S k) = Some q.
Proof.
  assert (SEG : forall (ps : list cvec) k p q, nth_error (combine (removelast ps) (tl ps)) k = Some (p, q) <-> nth_error ps k = Some p /\ nth_error ps (S k) = Some q).
  { intros ps k p q. rewrite (combine_shift ps k (CV 0 0 0)). destruct (Nat.ltb_spec (S k) (length ps)) as [L|L].
    - rewrite (nth_error_nth' ps (CV 0 0 0)) by lia. rewrite (nth_error_nth' ps (CV 0 0 0) L). split; [intros E; injection E as -> ->; auto|intros [A B]; congruence].
    - split; [discriminate|]. intros [_ B]. assert (S k < length ps)%nat by (apply nth_error_Some; congruence). lia. }
  assert (LEN : forall ps : list cvec, length (combine (removelast ps) (tl ps)) = (length ps - 1)%nat).
  { intros ps. rewrite combine_length. destruct ps as [|a ps]; [reflexivity|]. assert (R : length (removelast (a :: ps)) = length ps) by (rewrite removelast_firstn_len, firstn_length; cbn; lia). rewrite R. cbn. lia. }
  unfold plot_coloured_trajectory. destruct (Nat.eqb (length x) (length y) && Nat.eqb (length y) (length z))%bool eqn:G.
  - apply coordinates_guard in G. destruct G as [ps C]. cbv zeta. rewrite (coordinates_points _ _ _ _ C). split.
    + intros E. injection E as <-. exists ps. split; [exact C|]. split; [apply LEN|]. intros k p q. apply SEG.
    + intros (qs & C' & L & H). assert (E : qs = ps) by (rewrite <- (coordinates_points _ _ _ _ C), <- (coordinates_points _ _ _ _ C'); reflexivity). subst qs. f_equal. apply same_places. intros k.
      destruct (nth_error (combine (removelast ps) (tl ps)) k) as [[p q]|] eqn:A.
      * symmetry. apply H, SEG, A.
      * symmetry. apply nth_error_None. apply nth_error_None in A. rewrite LEN in A. lia.
  - split; [discriminate|]. intros (ps & C & _). exfalso. assert (T := proj2 (coordinates_guard x y z) (ex_intro _ ps C)). congruence.
Qed.

(** ** Selections *)
Lemma tuples_in n r : forall idx, In idx (tuples n r) <-> length idx = r /\ forall i, In i idx -> (i < n)%nat.
Proof.
  induction r as [|r IH]; intros idx; cbn [tuples].
  - split; [intros [<-|[]]; split; [reflexivity|intros ? []]|intros [L _]; destruct idx; [left; reflexivity|discriminate]].
  - rewrite in_flat_map. split.
    + intros (i & I & M). apply in_map_iff in M. destruct M as (t & <- & T). apply IH in T. destruct T as [L B]. apply in_seq in I. split; [cbn; lia|]. intros j [<-|J]; [lia|auto].
    + intros [L B]. destruct idx as [|i t]; [discriminate|]. exists i. split; [apply in_seq; specialize (B i (or_introl eq_refl)); lia|]. apply in_map. apply IH. split; [cbn in L; lia|intros j J; apply B; right; exact J].
Qed.
Lemma unrepeated_iff l : unrepeated l = true <-> NoDup l.
Proof.
  induction l as [|i l IH]; cbn [unrepeated]; [split; [constructor|reflexivity]|]. rewrite Bool.andb_true_iff, Bool.negb_true_iff, IH. split.
  - intros [A B]. constructor; [|exact B]. intros I. assert (T : existsb (Nat.eqb i) l = true) by (apply existsb_exists; exists i; split; [exact I|apply Nat.eqb_refl]). congruence.
  - intros N. inversion N as [|? ? A B]; subst. split; [|exact B]. destruct (existsb (Nat.eqb i) l) eqn:E; [|reflexivity]. apply existsb_exists in E. destruct E as (j & J & E). apply Nat.eqb_eq in E. subst j. contradiction.
Qed.
Lemma permutations_iff n r idx : In idx (permutations n r) <-> selection n r idx.
Proof. unfold permutations, selection. rewrite filter_In, tuples_in, unrepeated_iff. tauto. Qed.
Lemma sorted_app {A} (Q : A -> A -> Prop) l m : StronglySorted Q l -> StronglySorted Q m -> (forall x y, In x l -> In y m -> Q x y) -> StronglySorted Q (l ++ m).
Proof.
  induction 1 as [|a l S IH F]; intros M H; [exact M|]. cbn. constructor; [apply IH; [exact M|intros; apply H; [right|]; assumption]|]. rewrite Forall_forall in F |- *. intros y Y. apply in_app_iff in Y. destruct Y as [Y|Y]; [auto|apply H; [left; reflexivity|exact Y]].
Qed.
Lemma tuples_sorted n r : StronglySorted lex (tuples n r).
Proof.
  assert (J : forall ts k a, StronglySorted lex ts -> StronglySorted lex (flat_map (fun i => map (cons i) ts) (seq a k))).
  { intros ts k. induction k as [|k IH]; intros a T; cbn [seq flat_map]; [constructor|]. apply sorted_app.
    - clear IH. induction T as [|t l S IH F]; cbn; constructor; [exact IH|]. rewrite Forall_forall in F |- *. intros u U. apply in_map_iff in U. destruct U as (v & <- & V). apply lex_tail, F, V.
    - apply IH, T.
    - intros x y X Y. apply in_map_iff in X. destruct X as (t & <- & _). apply in_flat_map in Y. destruct Y as (i & I & Y). apply in_map_iff in Y. destruct Y as (u & <- & _). apply in_seq in I. apply lex_head. lia. }
  induction r as [|r IH]; cbn [tuples]; [constructor; constructor|]. apply J, IH.
Qed.
Lemma filter_sorted {A} (Q : A -> A -> Prop) p l : StronglySorted Q l -> StronglySorted Q (filter p l).
Proof.
  induction 1 as [|a l S IH F]; cbn; [constructor|]. destruct (p a); [|exact IH]. constructor; [exact IH|]. rewrite Forall_forall in F |- *. intros y Y. apply filter_In in Y. apply F, Y.
Qed.
Lemma permutations_sorted n r : StronglySorted lex (permutations n r).
Proof. apply filter_sorted, tuples_sorted. Qed.
Lemma lex_irrefl l : ~ lex l l.
Proof. induction l as [|a l IH]; intros H; inversion H; subst; [lia|contradiction]. Qed.
Lemma sorted_nodup l : StronglySorted lex l -> NoDup l.
Proof. induction 1 as [|a l S IH F]; constructor; [|exact IH]. intros I. rewrite Forall_forall in F. exact (lex_irrefl a (F a I)). Qed.
Lemma nodup_joined {A} (l m : list A) : NoDup l -> NoDup m -> (forall x, In x l -> In x m -> False) -> NoDup (l ++ m).
Proof.
  induction l as [|x l IH]; intros L M D; [exact M|]. inversion L; subst. cbn. constructor; [|apply IH; auto; intros y Y; apply D; right; exact Y].
  intros I. apply in_app_iff in I. destruct I as [I|I]; [contradiction|]. apply (D x); [left; reflexivity|exact I].
Qed.
Lemma outside_count n t : NoDup t -> (forall i, In i t -> (i < n)%nat) -> length (filter (fun i => negb (existsb (Nat.eqb i) t)) (seq 0 n)) = (n - length t)%nat.
Proof.
  intros N B. set (p := fun i => negb (existsb (Nat.eqb i) t)). assert (P : forall i, p i = true <-> ~ In i t).
  { intros i. unfold p. rewrite Bool.negb_true_iff. split.
    - intros E I. assert (T : existsb (Nat.eqb i) t = true) by (apply existsb_exists; exists i; split; [exact I|apply Nat.eqb_refl]). congruence.
    - intros I. destruct (existsb (Nat.eqb i) t) eqn:E; [|reflexivity]. apply existsb_exists in E. destruct E as (j & J & E). apply Nat.eqb_eq in E. subst j. contradiction. }
  assert (PM : Permutation (seq 0 n) (t ++ filter p (seq 0 n))).
  { apply NoDup_Permutation; [apply seq_NoDup| |].
    - apply nodup_joined; [exact N|apply NoDup_filter, seq_NoDup|]. intros i I J. apply filter_In in J. destruct J as [_ J]. apply P in J. contradiction.
    - intros i. rewrite in_app_iff, filter_In, P. split; [intros I; destruct (in_dec Nat.eq_dec i t); auto|intros [I|[I _]]; [apply in_seq; specialize (B i I); lia|exact I]]. }
  apply Permutation_length in PM. rewrite app_length, seq_length in PM. lia.
Qed.

Lemma permutations_length n r : length (permutations n r) = falling n r.
Proof.
  induction r as [|r IH]; [reflexivity|]. cbn [falling]. rewrite <- IH.
  assert (PM : Permutation (permutations n (S r)) (flat_map (fun t => map (fun i => i :: t) (filter (fun i => negb (existsb (Nat.eqb i) t)) (seq 0 n))) (permutations n r))).
  { apply NoDup_Permutation; [apply sorted_nodup, permutations_sorted| |].
    - clear IH. assert (N := sorted_nodup _ (permutations_sorted n r)). induction N as [|t l T N IHl]; [constructor|]. cbn [flat_map]. apply nodup_joined; [|exact IHl|].
      + assert (NF := NoDup_filter (fun i => negb (existsb (Nat.eqb i) t)) (seq_NoDup n 0)). induction NF as [|a l' A NF IHf]; cbn; constructor; [|exact IHf]. rewrite in_map_iff. intros (b & E & B). injection E as ->. contradiction.
      + intros u U V. apply in_map_iff in U. destruct U as (i & <- & _). apply in_flat_map in V. destruct V as (t' & T' & V). apply in_map_iff in V. destruct V as (j & E & _). injection E as _ ->. contradiction.
    - intros idx. rewrite permutations_iff, in_flat_map. unfold selection. split.
      + intros (L & N & B). destruct idx as [|i t]; [discriminate|]. inversion N as [|? ? A N']; subst. exists t. split; [apply permutations_iff; split; [cbn in L; lia|split; [exact N'|intros j J; apply B; right; exact J]]|].
        apply in_map_iff. exists i. split; [reflexivity|]. apply filter_In. split; [apply in_seq; specialize (B i (or_introl eq_refl)); lia|]. apply Bool.negb_true_iff. destruct (existsb (Nat.eqb i) t) eqn:E; [|reflexivity]. apply existsb_exists in E. destruct E as (j & J & E). apply Nat.eqb_eq in E. subst j. contradiction.
      + intros (t & T & I). apply permutations_iff in T. destruct T as (L & N & B). apply in_map_iff in I. destruct I as (i & <- & I). apply filter_In in I. destruct I as [I X]. apply in_seq in I. apply Bool.negb_true_iff in X. split; [cbn; lia|]. split.
        * constructor; [|exact N]. intros J. assert (Y : existsb (Nat.eqb i) t = true) by (apply existsb_exists; exists i; split; [exact J|apply Nat.eqb_refl]). congruence.
        * intros j [<-|J]; [lia|auto]. }
  rewrite (Permutation_length PM). assert (P : forall t, In t (permutations n r) -> NoDup t /\ (forall i, In i t -> (i < n)%nat) /\ length t = r) by (intros t T; apply permutations_iff in T; destruct T as (A & B & C); auto).
  clear PM IH. induction (permutations n r) as [|t l IHl]; [cbn; lia|]. cbn [flat_map length]. rewrite app_length, map_length, IHl by (intros u U; apply P; right; exact U). destruct (P t (or_introl eq_refl)) as (A & B & C). rewrite outside_count, C by assumption. lia.
Qed.
Lemma cells_iff n r : (forall idx, length idx = r -> (forall i, In i idx -> (i < n)%nat) -> In idx (permutations n r)) <-> (r <= 1)%nat \/ n = 0%nat.
Proof.
  split.
  - intros H. destruct (Nat.le_gt_cases r 1) as [L|L]; [auto|]. right. destruct n as [|n]; [reflexivity|exfalso]. specialize (H (repeat 0%nat r) (repeat_length _ _) ltac:(intros i I; apply repeat_spec in I; lia)). apply permutations_iff in H. destruct H as (_ & N & _).
    destruct r as [|[|r]]; try lia. cbn in N. inversion N as [|? ? A _]; subst. apply A. left. reflexivity.
  - intros C idx L B. apply permutations_iff. split; [exact L|]. split; [|exact B]. destruct C as [C| ->].
    + destruct idx as [|i [|j idx]]; [constructor|constructor; [intros []|constructor]|cbn in L; lia].
    + destruct idx as [|i idx]; [constructor|]. specialize (B i (or_introl eq_refl)). lia.
Qed.
Lemma selection_max n r p : (r <= n)%nat -> (p < r)%nat -> exists idx, selection n r idx /\ nth_error idx p = Some (n - 1)%nat.
Proof.
  intros L P. set (f := fun q => if Nat.eqb q p then (n - 1)%nat else if Nat.eqb q (n - 1) then p else q). exists (map f (seq 0 r)). split; [split; [|split]|].
  - rewrite map_length, seq_length. reflexivity.
  - assert (INJ : forall a b, f a = f b -> a = b) by (intros a b; unfold f; destruct (Nat.eqb_spec a p), (Nat.eqb_spec b p), (Nat.eqb_spec a (n - 1)), (Nat.eqb_spec b (n - 1)); lia). generalize (seq_NoDup r 0). induction (seq 0 r) as [|a l IH]; intros N; [constructor|]. inversion N as [|? ? A N']; subst. cbn. constructor; [|auto]. rewrite in_map_iff. intros (b & E & B). apply INJ in E. subst b. contradiction.
  - intros i I. apply in_map_iff in I. destruct I as (q & <- & Q). apply in_seq in Q. unfold f. destruct (Nat.eqb_spec q p); [lia|]. destruct (Nat.eqb_spec q (n - 1)); lia.
  - rewrite (map_nth_error f p (seq 0 r) (d := p)); [unfold f; rewrite Nat.eqb_refl; reflexivity|]. rewrite (nth_error_nth' _ 0%nat) by (rewrite seq_length; exact P). rewrite seq_nth by exact P. reflexivity.
Qed.

(** ** Unpacking *)
Lemma forallb_places idx : forall sh, (length idx <= length sh)%nat -> (forallb (fun p => Nat.ltb (fst p) (snd p)) (combine idx sh) = true <-> forall k, (k < length idx)%nat -> (nth k idx 0 < nth k sh 0)%nat).
Proof.
  induction idx as [|i idx IH]; intros sh L; [cbn; split; [lia|reflexivity]|]. destruct sh as [|d sh]; [cbn in L; lia|]. cbn [combine forallb fst snd]. rewrite Bool.andb_true_iff, Nat.ltb_lt, IH by (cbn in L; lia). split.
  - intros [A B] k K. destruct k; [exact A|]. cbn in K |- *. apply B. lia.
  - intros H. split; [apply (H 0%nat); cbn; lia|]. intros k K. apply (H (S k)). cbn. lia.
Qed.
Lemma at_index_iff m idx v : at_index m idx = Ok v <-> length idx = length (nd_shape m) /\ (forall k, (k < length idx)%nat -> (nth k idx 0 < nth k (nd_shape m) 0)%nat) /\ v = nd_data m idx.
Proof.
  unfold at_index. destruct (Nat.ltb_spec (length (nd_shape m)) (length idx)) as [L|L]; [split; [discriminate|lia]|]. assert (F := forallb_places idx (nd_shape m) L).
  destruct (forallb _ _) eqn:E; cbn [negb].
  - destruct (Nat.ltb_spec (length idx) (length (nd_shape m))); [split; [discriminate|lia]|]. split; [intros X; injection X as <-; split; [lia|]; split; [apply F; reflexivity|reflexivity]|intros (_ & _ & ->); reflexivity].
  - split; [discriminate|]. intros (_ & B & _). apply F in B. discriminate.
Qed.
Lemma items_iff (axes : list (list R)) : forall idx cs, length idx = length axes -> (rmap (fun p => list_item (fst p) (snd p)) (combine axes idx) = Ok cs <->
  (forall k, (k < length axes)%nat -> (nth k idx 0 < length (nth k axes []))%nat) /\ cs = map (fun k => nth (nth k idx 0%nat) (nth k axes []) 0) (seq 0 (length axes))).
Proof.
  induction axes as [|a axes IH]; intros idx cs L; [cbn; split; [intros E; injection E as <-; split; [lia|reflexivity]|intros [_ ->]; reflexivity]|]. destruct idx as [|i idx]; [discriminate|]. cbn [combine rmap fst snd length seq map]. rewrite rbind_iff. unfold list_item at 1. split.
  - intros (y & Y & E). apply rbind_iff in E. destruct E as (ys & YS & E). injection E as <-. apply IH in YS; [|cbn in L; lia]. destruct YS as [A ->]. destruct (nth_error a i) eqn:N; [|discriminate]. injection Y as ->. assert (IL : (i < length a)%nat) by (apply nth_error_Some; congruence). split.
    + intros [|k] K; [exact IL|]. cbn. apply A. lia.
    + f_equal; [symmetry; apply nth_error_nth, N|]. rewrite <- seq_shift, map_map. reflexivity.
  - intros [A ->]. exists (nth i a 0). assert (IL := A 0%nat ltac:(lia)). cbn in IL. split; [rewrite (nth_error_nth' a 0 IL); reflexivity|]. apply rbind_iff. eexists. split; [apply IH; [cbn in L; lia|]; split; [intros k K; apply (A (S k)); lia|reflexivity]|]. rewrite <- seq_shift, map_map. reflexivity.
Qed.
Lemma unpack_entry_iff m axes idx out : length idx = length axes -> (unpack_entry m axes idx = Ok out <-> fits m axes idx /\ out = (map (fun k => nth (nth k idx 0%nat) (nth k axes []) 0) (seq 0 (length axes)), nd_data m idx)).
Proof.
  intros L. unfold unpack_entry, fits. rewrite rbind_iff. split.
  - intros (v & V & E). apply rbind_iff in E. destruct E as (cs & CS & E). injection E as <-. apply at_index_iff in V. destruct V as (A & B & ->). apply items_iff in CS; [|exact L]. destruct CS as [C ->]. auto.
  - intros [(A & B & C) ->]. exists (nd_data m idx). split; [apply at_index_iff; auto|]. apply rbind_iff. eexists. split; [apply items_iff; [exact L|split; [exact C|reflexivity]]|reflexivity].
Qed.
Lemma unpack_iff m axes lists values : unpack_ndim_map m axes = Ok (lists, values) <->
  exists first, nth_error axes 0 = Some first /\ (forall idx, selection (length first) (length axes) idx -> fits m axes idx) /\
  lists = map (fun k => map (fun idx => nth (nth k idx 0%nat) (nth k axes []) 0) (permutations (length first) (length axes))) (seq 0 (length axes)) /\
  values = map (nd_data m) (permutations (length first) (length axes)).
Proof.
  unfold unpack_ndim_map. rewrite rbind_iff. unfold list_item at 1. 
  assert (ROWS : forall ls rows, (forall idx, In idx ls -> length idx = length axes) -> (rmap (unpack_entry m axes) ls = Ok rows <-> (forall idx, In idx ls -> fits m axes idx) /\ rows = map (fun idx => (map (fun k => nth (nth k idx 0%nat) (nth k axes []) 0) (seq 0 (length axes)), nd_data m idx)) ls)).
  { intros ls. induction ls as [|idx ls IH]; intros rows L; [cbn; split; [intros E; injection E as <-; split; [intros ? []|reflexivity]|intros [_ ->]; reflexivity]|]. cbn [rmap map]. rewrite rbind_iff. split.
    - intros (y & Y & E). apply rbind_iff in E. destruct E as (ys & YS & E). injection E as <-. apply unpack_entry_iff in Y; [|apply L; left; reflexivity]. destruct Y as [F ->]. apply IH in YS; [|intros; apply L; right; assumption]. destruct YS as [G ->]. split; [intros i [<-|I]; auto|reflexivity].
    - intros [F ->]. eexists. split; [apply unpack_entry_iff; [apply L; left; reflexivity|]; split; [apply F; left; reflexivity|reflexivity]|]. apply rbind_iff. eexists. split; [apply IH; [intros; apply L; right; assumption|]; split; [intros; apply F; right; assumption|reflexivity]|reflexivity]. }
  assert (TR : forall ls : list (list nat), map (fun i => map (fun r : list R * R => nth i (fst r) 0) (map (fun idx => (map (fun k => nth (nth k idx 0%nat) (nth k axes []) 0) (seq 0 (length axes)), nd_data m idx)) ls)) (seq 0 (length axes)) = map (fun k => map (fun idx => nth (nth k idx 0%nat) (nth k axes []) 0) ls) (seq 0 (length axes))).
  { intros ls. apply map_ext_in. intros k K. apply in_seq in K. rewrite map_map. apply map_ext. intros idx. cbn [fst]. rewrite (nth_indep _ 0 (nth (nth 0 idx 0%nat) (nth 0 axes []) 0)) by (rewrite map_length, seq_length; lia). rewrite (map_nth (fun k => nth (nth k idx 0%nat) (nth k axes []) 0) (seq 0 (length axes)) 0%nat k). rewrite seq_nth by lia. reflexivity. }
  assert (LEN : forall n idx, In idx (permutations n (length axes)) -> length idx = length axes) by (intros n idx I; apply permutations_iff in I; apply I).
  split.
  - intros (first & F & E). destruct (nth_error axes 0) as [f|] eqn:N; [|discriminate]. injection F as ->. exists first. split; [reflexivity|]. apply rbind_iff in E. destruct E as (rows & RR & E). apply ROWS in RR; [|apply LEN]. destruct RR as [FI ->]. injection E as <- <-.
    split; [intros idx S; apply FI, permutations_iff, S|]. split; [apply TR|]. rewrite map_map. reflexivity.
  - intros (first & N & FI & -> & ->). exists first. rewrite N. split; [reflexivity|]. apply rbind_iff. eexists. split; [apply ROWS; [apply LEN|]; split; [intros idx I; apply FI, permutations_iff, I|reflexivity]|]. rewrite TR, map_map. reflexivity.
Qed.
Lemma unpack_ok m axes : (exists out, unpack_ndim_map m axes = Ok out) <-> exists first, nth_error axes 0 = Some first /\
  (length first < length axes \/ (length (nd_shape m) = length axes /\ (forall d, In d (nd_shape m) -> (length first <= d)%nat) /\ forall a, In a axes -> (length first <= length a)%nat))%nat.
Proof.
  split.
  - intros [[lists values] E]. apply unpack_iff in E. destruct E as (first & N & F & _). exists first. split; [exact N|]. destruct (Nat.lt_ge_cases (length first) (length axes)) as [L|L]; [auto|]. right.
    assert (P0 : (0 < length axes)%nat) by (destruct axes; [discriminate|cbn; lia]). assert (LS : length (nd_shape m) = length axes). { destruct (selection_max _ _ 0 L P0) as (idx & S & _). assert (FF := F idx S). destruct S as (SL & _). destruct FF as (FL & _). lia. }
    split; [exact LS|]. split.
    + intros d D. apply (In_nth _ _ 0%nat) in D. destruct D as (p & P & <-). destruct (selection_max (length first) (length axes) p L ltac:(lia)) as (idx & S & M). destruct (F idx S) as (A & B & _). apply (nth_error_nth _ _ 0%nat) in M. specialize (B p ltac:(lia)). rewrite M in B. lia.
    + intros a A. apply (In_nth _ _ []) in A. destruct A as (p & P & <-). destruct (selection_max (length first) (length axes) p L P) as (idx & S & M). destruct (F idx S) as (_ & _ & C). apply (nth_error_nth _ _ 0%nat) in M. specialize (C p P). rewrite M in C. lia.
  - intros (first & N & H). eexists (_, _). apply unpack_iff. exists first. split; [exact N|]. split; [|split; reflexivity]. intros idx (SL & SN & SB). destruct H as [H|(LS & D & A)].
    + exfalso. assert (I : incl idx (seq 0 (length first))) by (intros i I; apply in_seq; specialize (SB i I); lia). apply (NoDup_incl_length SN) in I. rewrite seq_length in I. lia.
    + split; [lia|]. split.
      * intros k K. assert (X := SB _ (nth_In idx 0%nat K)). assert (Y := D _ (nth_In (nd_shape m) 0%nat (n := k) ltac:(lia))). lia.
      * intros k K. assert (X := SB _ (nth_In idx 0%nat (n := k) ltac:(lia))). assert (Y := A _ (nth_In axes [] K)). lia.
Qed.
(** ** Parallel coordinates *)
Lemma col_min_least l : l <> [] -> least_of l (col_min l).
Proof.
  destruct l as [|x l]; [congruence|]. intros _. cbn [col_min]. revert x. induction l as [|a l IH]; intros x; cbn [fold_left]; [split; [left; reflexivity|intros w [<-|[]]; lra]|]. destruct (IH (Rmin x a)) as [I B]. split.
  - destruct I as [E|I]; [|right; right; exact I]. rewrite <- E. unfold Rmin. destruct (Rle_dec x a); [left|right; left]; reflexivity.
  - assert (M := B _ (or_introl eq_refl)). intros w [<-|[<-|W]]; [eapply Rle_trans; [exact M|apply Rmin_l]|eapply Rle_trans; [exact M|apply Rmin_r]|apply B; right; exact W].
Qed.
Lemma col_max_greatest l : l <> [] -> greatest_of l (col_max l).
Proof.
  destruct l as [|x l]; [congruence|]. intros _. cbn [col_max]. revert x. induction l as [|a l IH]; intros x; cbn [fold_left]; [split; [left; reflexivity|intros w [<-|[]]; lra]|]. destruct (IH (Rmax x a)) as [I B]. split.
  - destruct I as [E|I]; [|right; right; exact I]. rewrite <- E. unfold Rmax. destruct (Rle_dec x a); [right; left|left]; reflexivity.
  - assert (M := B _ (or_introl eq_refl)). intros w [<-|[<-|W]]; [eapply Rle_trans; [apply Rmax_l|exact M]|eapply Rle_trans; [apply Rmax_r|exact M]|apply B; right; exact W].
Qed.
Lemma least_unique l a b : least_of l a -> least_of l b -> a = b.
Proof. intros [A B] [C D]. apply Rle_antisym; auto. Qed.
Lemma greatest_unique l a b : greatest_of l a -> greatest_of l b -> a = b.
Proof. intros [A B] [C D]. apply Rle_antisym; auto. Qed.
Lemma limits_iff l a b : l <> [] -> (limits l = (a, b) <-> exists lo hi, least_of l lo /\ greatest_of l hi /\ a = lo - (hi - lo) / 20 /\ b = hi + (hi - lo) / 20).
Proof.
  intros N. assert (A := col_min_least l N). assert (B := col_max_greatest l N). unfold limits. split.
  - intros E. apply pair_equal_spec in E. destruct E as [<- <-]. exists (col_min l), (col_max l). split; [exact A|]. split; [exact B|]. split; field.
  - intros (lo & hi & L & G & -> & ->). rewrite (least_unique _ _ _ A L), (greatest_unique _ _ _ B G). f_equal; field.
Qed.
Lemma scaled_value x lo hi lo0 hi0 : hi - lo <> 0 -> (x - (lo - (hi - lo) * (5 / 100))) / (hi + (hi - lo) * (5 / 100) - (lo - (hi - lo) * (5 / 100))) * (hi0 + (hi0 - lo0) * (5 / 100) - (lo0 - (hi0 - lo0) * (5 / 100))) + (lo0 - (hi0 - lo0) * (5 / 100)) = lo0 + (x - lo) / (hi - lo) * (hi0 - lo0).
Proof. intros H. field. split; [exact H|]. replace (100 * (hi * 100 + (hi - lo) * 5) - 100 * (lo * 100 - (hi - lo) * 5)) with (11000 * (hi - lo)) by ring. nra. Qed.
Lemma scale_row_iff ys width row zs : ys <> [] -> (scale_row ys width row = Ok zs <-> length zs = width /\ forall c lo hi lo0 hi0, (c < width)%nat ->
  least_of (column ys c) lo -> greatest_of (column ys c) hi -> least_of (column ys 0) lo0 -> greatest_of (column ys 0) hi0 ->
  (c = 0%nat -> nth c zs 0 = nth 0 row 0) /\ (c <> 0%nat -> lo <> hi /\ nth c zs 0 = lo0 + (nth c row 0 - lo) / (hi - lo) * (hi0 - lo0))).
Proof.
  intros N. unfold scale_row. rewrite (rmap_seq _ 0). cbn [Nat.add].
  assert (NE : forall c, column ys c <> []) by (intros c; unfold column; destruct ys; [congruence|discriminate]).
  split; intros [L H]; (split; [exact L|]).
  - intros c lo hi lo0 hi0 C A B A0 B0. specialize (H c C). destruct (Nat.eqb_spec c 0) as [X|X]; [split; [intros _; apply (f_equal (fun o => match o with Ok v => v | Err _ => 0 end)) in H; cbv beta iota in H; symmetry; exact H|congruence]|]. split; [congruence|]. intros _.
    apply rbind_iff in H. destruct H as (q & Q & E). injection E as E. apply fdiv_iff in Q. destruct Q as [Z ->]. unfold limits, span in *. cbn [fst snd] in *.
    rewrite (least_unique _ _ _ (col_min_least _ (NE c)) A), (greatest_unique _ _ _ (col_max_greatest _ (NE c)) B) in *. rewrite (least_unique _ _ _ (col_min_least _ (NE 0%nat)) A0), (greatest_unique _ _ _ (col_max_greatest _ (NE 0%nat)) B0) in E. assert (D : hi - lo <> 0) by (intros D; apply Z; rewrite D; lra). split; [lra|]. rewrite <- E. apply scaled_value, D.
  - intros c C. destruct (H c _ _ _ _ C (col_min_least _ (NE c)) (col_max_greatest _ (NE c)) (col_min_least _ (NE 0%nat)) (col_max_greatest _ (NE 0%nat))) as [H0 H1]. destruct (Nat.eqb_spec c 0) as [->|X]; [rewrite H0; reflexivity|]. destruct (H1 X) as [D E]. apply rbind_iff. eexists. split; [apply fdiv_iff; split; [|reflexivity]|].
    + unfold limits, span. cbn [fst snd]. lra.
    + f_equal. rewrite E. unfold limits, span. cbn [fst snd]. apply scaled_value. lra.
Qed.
Lemma scale_rows_iff ys width zs : scale_rows ys width = Ok zs <-> ys <> [] /\ Forall2 (fun row z => length z = width /\ forall c lo hi lo0 hi0, (c < width)%nat ->
  least_of (column ys c) lo -> greatest_of (column ys c) hi -> least_of (column ys 0) lo0 -> greatest_of (column ys 0) hi0 ->
  (c = 0%nat -> nth c z 0 = nth 0 row 0) /\ (c <> 0%nat -> lo <> hi /\ nth c z 0 = lo0 + (nth c row 0 - lo) / (hi - lo) * (hi0 - lo0))) ys zs.
Proof.
  unfold scale_rows. destruct ys as [|y ys]; [split; [discriminate|intros [X _]; congruence]|]. rewrite rmap_iff. assert (N : y :: ys <> []) by discriminate. 
  assert (G : forall rows (Q : list R -> list R -> Prop) (P : list R -> list R -> Prop) out, (forall a b, Q a b <-> P a b) -> (Forall2 Q rows out <-> Forall2 P rows out)).
  { intros rows Q P out E. split; induction 1; constructor; auto; apply E; assumption. }
  rewrite (G (y :: ys) _ _ zs (fun a b => scale_row_iff (y :: ys) width a b N)). split; [intros H; split; [exact N|exact H]|intros [_ H]; exact H].
Qed.
Lemma scale_rows_ok ys width : (exists zs, scale_rows ys width = Ok zs) <-> ys <> [] /\ forall c lo hi, (0 < c < width)%nat -> least_of (column ys c) lo -> greatest_of (column ys c) hi -> lo <> hi.
Proof.
  split.
  - intros [zs E]. apply scale_rows_iff in E. destruct E as [N F]. split; [exact N|]. intros c lo hi C A B. assert (NE : column ys 0 <> []) by (unfold column; destruct ys; [congruence|discriminate]). destruct ys as [|row ys]; [congruence|]. inversion F as [|? z ? zs' H F']; subst. destruct H as [_ H]. refine (proj1 (proj2 (H c lo hi _ _ ltac:(lia) A B (col_min_least _ NE) (col_max_greatest _ NE)) ltac:(lia))).
  - intros [N D]. assert (NE : forall c, column ys c <> []) by (intros c; unfold column; destruct ys; [congruence|discriminate]).
    set (f := fun (row : list R) => map (fun c => if Nat.eqb c 0 then nth 0 row 0 else col_min (column ys 0) + (nth c row 0 - col_min (column ys c)) / (col_max (column ys c) - col_min (column ys c)) * (col_max (column ys 0) - col_min (column ys 0))) (seq 0 width)).
    exists (map f ys). apply scale_rows_iff. split; [exact N|]. assert (G : forall rows, Forall2 (fun row z => length z = width /\ forall c lo hi lo0 hi0, (c < width)%nat -> least_of (column ys c) lo -> greatest_of (column ys c) hi -> least_of (column ys 0) lo0 -> greatest_of (column ys 0) hi0 ->
      (c = 0%nat -> nth c z 0 = nth 0 row 0) /\ (c <> 0%nat -> lo <> hi /\ nth c z 0 = lo0 + (nth c row 0 - lo) / (hi - lo) * (hi0 - lo0))) rows (map f rows)); [|apply G].
    induction rows as [|row rows IH]; cbn [map]; constructor; [|exact IH]. unfold f. split; [rewrite map_length, seq_length; reflexivity|]. intros c lo hi lo0 hi0 C A B A0 B0.
    set (g := fun c : nat => if Nat.eqb c 0 then nth 0 row 0 else col_min (column ys 0) + (nth c row 0 - col_min (column ys c)) / (col_max (column ys c) - col_min (column ys c)) * (col_max (column ys 0) - col_min (column ys 0))).
    assert (V : nth c (map g (seq 0 width)) 0 = g c) by (rewrite (nth_indep _ 0 (g 0%nat)) by (rewrite map_length, seq_length; exact C); rewrite map_nth, seq_nth by exact C; reflexivity).
    rewrite V. unfold g. destruct (Nat.eqb_spec c 0) as [->|X]; [split; [reflexivity|congruence]|]. split; [congruence|]. intros _. split; [apply (D c); [lia|exact A|exact B]|].
    rewrite (least_unique _ _ _ (col_min_least _ (NE c)) A), (greatest_unique _ _ _ (col_max_greatest _ (NE c)) B), (least_unique _ _ _ (col_min_least _ (NE 0%nat)) A0), (greatest_unique _ _ _ (col_max_greatest _ (NE 0%nat)) B0). reflexivity.
Qed.
Lemma column_in ys c row : In row ys -> In (nth c row 0) (column ys c).
Proof. intros I. unfold column. apply in_map_iff. exists row. auto. Qed.
Lemma scaled_inside ys width zs j row z c lo0 hi0 : scale_rows ys width = Ok zs -> nth_error ys j = Some row -> nth_error zs j = Some z -> (c < width)%nat -> least_of (column ys 0) lo0 -> greatest_of (column ys 0) hi0 -> lo0 <= nth c z 0 <= hi0.
Proof.
  intros E J Z C A0 B0. apply scale_rows_iff in E. destruct E as [N F]. assert (I := nth_error_In _ _ J). assert (H : forall rows out, Forall2 (fun row z => length z = width /\ forall c lo hi lo0 hi0, (c < width)%nat ->
  least_of (column ys c) lo -> greatest_of (column ys c) hi -> least_of (column ys 0) lo0 -> greatest_of (column ys 0) hi0 ->
  (c = 0%nat -> nth c z 0 = nth 0 row 0) /\ (c <> 0%nat -> lo <> hi /\ nth c z 0 = lo0 + (nth c row 0 - lo) / (hi - lo) * (hi0 - lo0))) rows out -> forall k a b, nth_error rows k = Some a -> nth_error out k = Some b -> length b = width /\ forall c lo hi lo0 hi0, (c < width)%nat ->
  least_of (column ys c) lo -> greatest_of (column ys c) hi -> least_of (column ys 0) lo0 -> greatest_of (column ys 0) hi0 ->
  (c = 0%nat -> nth c b 0 = nth 0 a 0) /\ (c <> 0%nat -> lo <> hi /\ nth c b 0 = lo0 + (nth c a 0 - lo) / (hi - lo) * (hi0 - lo0))).
  { intros rows out G. induction G as [|r o rows out H G IH]; intros [|k] a b Ha Hb; try discriminate; [injection Ha as <-; injection Hb as <-; exact H|exact (IH k a b Ha Hb)]. }
  destruct (H _ _ F j row z J Z) as [_ G]. assert (NE : column ys c <> []) by (unfold column; destruct ys; [congruence|discriminate]). assert (A := col_min_least _ NE). assert (B := col_max_greatest _ NE). destruct (G c _ _ _ _ C A B A0 B0) as [G0 G1]. destruct (Nat.eq_dec c 0) as [->|X].
  - rewrite (G0 eq_refl). split; [apply A0|apply B0]; apply column_in, I.
  - destruct (G1 X) as [D ->]. destruct A as [A1 A2], B as [B1 B2]. assert (P := A2 _ (column_in ys c row I)). assert (Q := B2 _ (column_in ys c row I)). assert (S0 : lo0 <= hi0) by (apply B0, A0). set (lo := col_min _) in *. set (hi := col_max _) in *. set (x := nth c row 0) in *.
    assert (F0 : 0 <= (x - lo) / (hi - lo)) by (apply Rmult_le_pos; [lra|left; apply Rinv_0_lt_compat; lra]). assert (F1 : (x - lo) / (hi - lo) <= 1) by (apply (Rmult_le_reg_r (hi - lo)); [lra|]; replace ((x - lo) / (hi - lo) * (hi - lo)) with (x - lo) by (field; lra); lra). nra.
Qed.
Lemma tripled (zs : list R) k : nth_error (flat_map (fun z => [z; z; z]) zs) k = nth_error zs (k / 3).
Proof.
  revert k. induction zs as [|z zs IH]; intros k; [cbn [flat_map]; rewrite !(proj2 (nth_error_None _ _)) by (cbn; lia); reflexivity|]. destruct k as [|[|[|k]]]; [reflexivity|reflexivity|reflexivity|]. change (nth_error (flat_map (fun z => [z; z; z]) zs) k = nth_error (z :: zs) (S (S (S k)) / 3)). rewrite IH. replace (S (S (S k)) / 3)%nat with (S (k / 3)) by (replace (S (S (S k))) with (k + 1 * 3)%nat by lia; rewrite Nat.div_add by lia; lia). reflexivity.
Qed.
Lemma tripled_length (zs : list R) : length (flat_map (fun z => [z; z; z]) zs) = (3 * length zs)%nat.
Proof. induction zs as [|z zs IH]; [reflexivity|]. cbn [flat_map app length]. rewrite IH. lia. Qed.
Lemma inner_entries {A} (l : list A) k : nth_error (removelast (tl l)) k = if Nat.ltb (k + 2) (length l) then nth_error l (S k) else None.
Proof.
  destruct l as [|a l]; [destruct k; reflexivity|]. cbn [tl]. rewrite removelast_firstn_. destruct (Nat.ltb_spec (k + 2) (length (a :: l))) as [L|L]; cbn [length] in L.
  - rewrite nth_error_firstn by lia. reflexivity.
  - apply nth_error_None. rewrite firstn_length. lia.
Qed.
Lemma thirds n xs k x : (1 <= n)%nat -> evenly 0 (INR n - 1) (3 * n - 2) xs -> nth_error xs k = Some x -> x = INR k / 3.
Proof.
  intros N E X. assert (L : (k < 3 * n - 2)%nat) by (destruct E as (L & _); rewrite <- L; apply nth_error_Some; congruence). destruct (evenly_value _ _ _ _ _ _ E X) as [-> |[N1 ->]].
  - replace (3 * n - 2 - 1)%nat with (3 * (n - 1))%nat by lia. destruct (Nat.eq_dec n 1) as [->|N2]; [replace k with 0%nat by lia; cbn [INR]; lra|]. rewrite mult_INR, minus_INR by lia. replace (INR 3) with 3 by (cbn [INR]; lra). cbn [INR]. field. assert (1 < INR n) by (apply (lt_INR 1); lia). lra.
  - replace k with 0%nat by lia. cbn [INR]. lra.
Qed.
Lemma curve_iff n zs ps : curve_points n zs = Ok ps <-> (1 <= n)%nat /\ length ps = Nat.min (3 * n - 2) (3 * length zs - 2) /\ forall k p, nth_error ps k = Some p -> fst p = INR k / 3 /\ nth_error zs ((k + 1) / 3) = Some (snd p).
Proof.
  unfold curve_points. rewrite rbind_iff.
  assert (V : forall xs k, (1 <= n)%nat -> evenly 0 (INR n - 1) (3 * n - 2) xs -> forall p, nth_error (combine xs (removelast (tl (flat_map (fun z => [z; z; z]) zs)))) k = Some p -> fst p = INR k / 3 /\ nth_error zs ((k + 1) / 3) = Some (snd p)).
  { intros xs k N E [a b] H. assert (W : forall (l : list R) (m : list R) i a b, nth_error (combine l m) i = Some (a, b) -> nth_error l i = Some a /\ nth_error m i = Some b). { induction l as [|u l IH]; intros [|v m] [|i] c d Y; try discriminate; cbn in Y |- *; [injection Y as <- <-; auto|apply IH, Y]. } apply W in H. destruct H as [H1 H2]. cbn [fst snd]. split; [apply (thirds n xs); assumption|]. rewrite inner_entries in H2. destruct (Nat.ltb _ _); [|discriminate]. rewrite tripled in H2. replace (k + 1)%nat with (S k) by lia. exact H2. }
  assert (LN : forall xs : list R, length xs = (3 * n - 2)%nat -> length (combine xs (removelast (tl (flat_map (fun z => [z; z; z]) zs)))) = Nat.min (3 * n - 2) (3 * length zs - 2)).
  { intros xs L. rewrite combine_length, L. f_equal. rewrite removelast_firstn_, firstn_length. assert (T : length (tl (flat_map (fun z : R => [z; z; z]) zs)) = (3 * length zs - 1)%nat) by (rewrite <- tripled_length; destruct (flat_map _ zs); cbn; lia). rewrite T. lia. }
  split.
  - intros (xs & X & E). injection E as <-. apply linspace_iff in X. destruct X as [N E]. assert (N1 : (1 <= n)%nat) by lia. replace (Z.to_nat (Z.of_nat n * 3 - 2)) with (3 * n - 2)%nat in E by lia. split; [exact N1|]. split; [apply LN, E|]. intros k p. apply V; assumption.
  - intros (N & L & H). destruct (linspace_ok 0 (INR n - 1) (Z.of_nat n * 3 - 2) ltac:(lia)) as (xs & X & E). exists xs. split; [exact X|]. f_equal. replace (Z.to_nat (Z.of_nat n * 3 - 2)) with (3 * n - 2)%nat in E by lia. apply same_places. intros k.
    set (qs := combine _ _). assert (LQ : length qs = Nat.min (3 * n - 2) (3 * length zs - 2)) by (apply LN, E). destruct (nth_error qs k) as [q|] eqn:Q.
    + assert (K : (k < length ps)%nat) by (rewrite L, <- LQ; apply nth_error_Some; congruence). apply nth_error_Some in K. destruct (nth_error ps k) as [p|] eqn:P; [|congruence]. apply V in Q; [|assumption|assumption]. destruct (H _ _ P) as [H1 H2], Q as [Q1 Q2]. f_equal. destruct p, q. cbn [fst snd] in *. congruence.
    + symmetry. apply nth_error_None. apply nth_error_None in Q. lia.
Qed.

(** ** Stacks *)
Lemma same_entries {A} (l m : list A) : (forall k x, nth_error l k = Some x <-> nth_error m k = Some x) -> l = m.
Proof.
  intros H. apply same_places. intros k. destruct (nth_error l k) as [x|] eqn:E; [symmetry; apply H, E|]. destruct (nth_error m k) as [x|] eqn:F; [|reflexivity]. apply H in F. congruence.
Qed.
Lemma arrow_unique e f : middle e = middle f -> extent e = extent f -> e = f.
Proof.
  destruct e as [[a b] [c d]], f as [[a' b'] [c' d']]. cbn. intros M E. apply pair_equal_spec in M, E. destruct M, E. repeat apply f_equal2; lra.
Qed.
Lemma stacked_unique {C L} w pad ox r hs angs (cs : list C) (ls : list L) oy rects texts arrows top rects' texts' arrows' top' :
  stacked w pad ox r hs angs cs ls oy rects texts arrows top -> stacked w pad ox r hs angs cs ls oy rects' texts' arrows' top' -> rects = rects' /\ texts = texts' /\ arrows = arrows' /\ top = top'.
Proof.
  intros (A1 & A2 & (g & A3 & A4) & A5) (B1 & B2 & (g' & B3 & B4) & B5). assert (E : rects = rects') by (apply same_entries; intros k x; rewrite A1, B1; reflexivity). split; [exact E|]. split; [apply same_entries; intros k x; rewrite A2, B2; reflexivity|]. split; [|subst; reflexivity]. subst. f_equal. apply same_entries. intros k x. rewrite A4, B4. reflexivity.
Qed.
Lemma sum_to_S h hs k : sum_to (S k) (h :: hs) = h + sum_to k hs.
Proof. reflexivity. Qed.
Lemma zipped_S {C L} h hs a angs (c : C) cs (l : L) ls k x y z u : zipped (h :: hs) (a :: angs) (c :: cs) (l :: ls) (S k) x y z u <-> zipped hs angs cs ls k x y z u.
Proof. reflexivity. Qed.
Lemma zipped_0 {C L} h hs a angs (c : C) cs (l : L) ls x y z u : zipped (h :: hs) (a :: angs) (c :: cs) (l :: ls) 0 x y z u <-> x = h /\ y = a /\ z = c /\ u = l.
Proof. unfold zipped. cbn. split; [intros (A & B & D & E); injection A; injection B; injection D; injection E; auto|intros (-> & -> & -> & ->); auto]. Qed.
Lemma stacked_end {C L} w pad ox r hs angs (cs : list C) (ls : list L) oy : (hs = [] \/ angs = [] \/ cs = [] \/ ls = []) -> stacked w pad ox r hs angs cs ls oy [] [] [] oy.
Proof.
  intros E. assert (N : forall k h a c l, ~ zipped hs angs cs ls k h a c l) by (intros k h a c l (A & B & D & F); destruct E as [->|[->|[->| ->]]]; destruct k; discriminate). split; [|split; [|split]].
  - intros k q. split; [destruct k; discriminate|]. intros (h & a & c & l & Z & _). destruct (N _ _ _ _ _ Z).
  - intros k q. split; [destruct k; discriminate|]. intros (h & a & c & l & Z & _). destruct (N _ _ _ _ _ Z).
  - exists []. split; [reflexivity|]. intros k q. split; [destruct k; discriminate|]. intros (h & a & c & l & Z & _). destruct (N _ _ _ _ _ Z).
  - unfold sum_to. cbn. ring.
Qed.
Lemma loop_stacked {C L} w pad ox r hs : forall angs (cs : list C) (ls : list L) oy rects texts arrows top,
  stack_loop w pad ox r hs angs cs ls oy = (rects, texts, arrows, top) -> stacked w pad ox r hs angs cs ls oy rects texts arrows top.
Proof.
  induction hs as [|h hs IH]; intros angs cs ls oy rects texts arrows top E; [cbn in E; injection E as <- <- <- <-; apply stacked_end; auto|].
  destruct angs as [|a angs]; [cbn in E; injection E as <- <- <- <-; apply stacked_end; auto|]. destruct cs as [|c cs]; [cbn in E; injection E as <- <- <- <-; apply stacked_end; auto|]. destruct ls as [|l ls]; [cbn in E; injection E as <- <- <- <-; apply stacked_end; auto|].
  cbn [stack_loop] in E. destruct (stack_loop w pad ox r hs angs cs ls (oy + h)) as [[[rects' texts'] arrows'] top'] eqn:F. apply IH in F. destruct F as (F1 & F2 & (groups & F3 & F4) & F5). injection E as <- <- <- <-. split; [|split; [|split]].
  - intros [|k] q; cbn [nth_error].
    + split; [intros X; injection X as <-; exists h, a, c, l; split; [apply zipped_0; auto|]; unfold sum_to; cbn; do 4 f_equal; ring|]. intros (h' & a' & c' & l' & Z & ->). apply zipped_0 in Z. destruct Z as (-> & -> & -> & ->). unfold sum_to. cbn. do 5 f_equal. ring.
    + rewrite F1. split; intros (h' & a' & c' & l' & Z & ->); exists h', a', c', l'; (split; [exact Z|]); rewrite sum_to_S; do 4 f_equal; ring.
  - intros [|k] q; cbn [nth_error].
    + split; [intros X; injection X as <-; exists h, a, c, l; split; [apply zipped_0; auto|]; unfold sum_to; cbn; do 2 f_equal; ring|]. intros (h' & a' & c' & l' & Z & ->). apply zipped_0 in Z. destruct Z as (-> & -> & -> & ->). unfold sum_to. cbn. do 3 f_equal. ring.
    + rewrite F2. split; intros (h' & a' & c' & l' & Z & ->); exists h', a', c', l'; (split; [exact Z|]); rewrite sum_to_S; do 2 f_equal; ring.
  - match goal with |- context [(?d ++ arrows')%list] => exists (d :: groups) end. split; [rewrite F3; reflexivity|]. intros [|k] g; cbn [nth_error].
    + split.
      * intros X. injection X as <-. exists h, a, c, l. split; [apply zipped_0; auto|]. destruct a as [d|]; [|reflexivity]. cbn [arrow_vector]. eexists. split; [reflexivity|]. unfold arrow_vector, deg2rad, middle, extent, sum_to. cbn [firstn fold_right]. replace (d * (PI / 180)) with (d * PI / 180) by field. split; f_equal; field.
      * intros (h' & a' & c' & l' & Z & G). apply zipped_0 in Z. destruct Z as (-> & -> & -> & ->). f_equal. destruct a as [d|]; [|congruence]. destruct G as (e & -> & M & X). cbn [arrow_vector]. f_equal. apply arrow_unique; [rewrite M|rewrite X]; unfold arrow_vector, deg2rad, middle, extent, sum_to; cbn [firstn fold_right]; replace (d * (PI / 180)) with (d * PI / 180) by field; f_equal; field.
    + rewrite F4. split; intros (h' & a' & c' & l' & Z & G); exists h', a', c', l'; (split; [exact Z|]); (destruct a' as [d|]; [|exact G]); destruct G as (e & -> & M & X); exists e; (split; [reflexivity|]); (split; [rewrite M; f_equal; rewrite sum_to_S; ring|exact X]).
  - rewrite F5. cbn [length]. rewrite sum_to_S. ring.
Qed.
Lemma stack_iff {C L} (colors : list C) heights angles (labels : list L) w pad ox oy r rv sp : create_stack colors heights angles labels w pad ox oy r rv = Ok sp <->
  exists top biggest, stacked w pad ox r (flip rv heights) (flip rv angles) (flip rv colors) (flip rv labels) oy (sp_rects sp) (sp_texts sp) (sp_arrows sp) top /\ greatest_of heights biggest /\
  sp_xlim sp = (ox - w / 2, ox + 3 * w / 2) /\ sp_ylim sp = (oy - biggest / 2, top + biggest / 2).
Proof.
  unfold create_stack. cbv zeta. fold (flip rv heights) (flip rv angles) (flip rv colors) (flip rv labels). destruct (stack_loop _ _ _ _ _ _ _ _ _) as [[[rects texts] arrows] top] eqn:E. apply loop_stacked in E.
  assert (GF : forall v, greatest_of (flip rv heights) v <-> greatest_of heights v).
  { intros v. unfold greatest_of, flip. destruct rv; [|reflexivity]. rewrite <- in_rev. split; intros [A B]; (split; [exact A|]); intros x X; apply B; [apply in_rev; rewrite rev_involutive|apply in_rev]; assumption. }
  assert (EM : flip rv heights = [] -> forall v, ~ greatest_of heights v) by (intros Z v G; apply GF in G; rewrite Z in G; destruct G as [[] _]).
  destruct (flip rv heights) as [|h hs] eqn:FH.
  - split; [discriminate|]. intros (t & b & _ & G & _). destruct (EM eq_refl b G).
  - assert (G := col_max_greatest (h :: hs) ltac:(discriminate)). split.
    + intros X. injection X as <-. exists top, (col_max (h :: hs)). cbn [sp_rects sp_texts sp_arrows sp_xlim sp_ylim]. split; [exact E|]. split; [apply GF, G|]. split; [f_equal; field|reflexivity].
    + intros (t & b & S & B & X & Y). f_equal. destruct sp as [r1 t1 a1 x1 y1]. cbn [sp_rects sp_texts sp_arrows sp_xlim sp_ylim] in *. destruct (stacked_unique _ _ _ _ _ _ _ _ _ _ _ _ _ _ _ _ _ E S) as (-> & -> & -> & ->). apply GF in B. rewrite (greatest_unique _ _ _ G B). subst. f_equal. f_equal. field.
Qed.
