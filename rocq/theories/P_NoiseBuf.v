(** Proofs about the buffered coloured noise. *)
From Verif Require Export P_Noise.
Open Scope R_scope.
Open Scope st_scope.

Lemma fold_cadd f n : fold_left cadd (map f (seq 0 n)) (0, 0) = (Rsum (fun t => fst (f t)) n, Rsum (fun t => snd (f t)) n).
Proof.
  induction n as [|n IH]; [reflexivity|]. rewrite seq_S, map_app, fold_left_app, IH. reflexivity.
Qed.
Lemma transform_length i xs : length (transform i xs) = length xs.
Proof. unfold transform. rewrite map_length, seq_length. reflexivity. Qed.
Lemma nth_map_seq {A} (f : nat -> A) n k d : (k < n)%nat -> nth k (map f (seq 0 n)) d = f k.
Proof.
  intros H. rewrite (nth_indep _ d (f 0%nat)) by (rewrite map_length, seq_length; exact H). rewrite map_nth, seq_nth by exact H. reflexivity.
Qed.
Lemma transform_nth i xs k : (k < length xs)%nat -> nth k (transform i xs) (0, 0) =
  (Rsum (fun t => fst (cmul (nth t xs (0, 0)) (twiddle i (length xs) k t))) (length xs),
   Rsum (fun t => snd (cmul (nth t xs (0, 0)) (twiddle i (length xs) k t))) (length xs)).
Proof. intros H. unfold transform. rewrite nth_map_seq by exact H. apply fold_cadd. Qed.
Lemma nth_firstn {A} (d : A) : forall n l k, (k < n)%nat -> nth k (firstn n l) d = nth k l d.
Proof. induction n as [|n IH]; intros [|x l] [|k] H; cbn; auto; try lia. apply IH. lia. Qed.
(** A list whose second half is zero. *)
Definition half (n : nat) (f : nat -> cplx) (xs : list cplx) : Prop :=
  length xs = (n + n)%nat /\ (forall t, (t < n)%nat -> nth t xs (0, 0) = f t) /\ forall t, (n <= t)%nat -> nth t xs (0, 0) = (0, 0).
Lemma half_pad n f xs : length xs = n -> (forall t, (t < n)%nat -> nth t xs (0, 0) = f t) -> half n f (xs ++ repeat (0, 0) n).
Proof.
  intros L H. split; [rewrite app_length, repeat_length, L; reflexivity|]. split; intros t Ht.
  - rewrite app_nth1 by lia. apply H, Ht.
  - rewrite app_nth2 by lia. apply nth_repeat.
Qed.
Lemma half_transform i n f xs k : half n f xs -> (k < n + n)%nat -> nth k (transform i xs) (0, 0) =
  (Rsum (fun t => fst (cmul (f t) (twiddle i (n + n) k t))) n, Rsum (fun t => snd (cmul (f t) (twiddle i (n + n) k t))) n).
Proof.
  intros (L & H & Z) Hk. rewrite transform_nth by (rewrite L; exact Hk). rewrite L, !Rsum_split.
  rewrite (Rsum_zero (fun q => fst (cmul (nth (n + q) xs (0, 0)) (twiddle i (n + n) k (n + q)))) n),
          (Rsum_zero (fun q => snd (cmul (nth (n + q) xs (0, 0)) (twiddle i (n + n) k (n + q)))) n).
  - rewrite !Rplus_0_r. f_equal; apply Rsum_ext; intros t Ht; rewrite (H t Ht); reflexivity.
  - intros q Hq. rewrite Z by lia. unfold cmul. cbn. ring.
  - intros q Hq. rewrite Z by lia. unfold cmul. cbn. ring.
Qed.
Lemma angle_double n k t : (0 < n)%nat -> 2 * PI * INR k * INR t / INR (n + n) = PI * INR k * INR t / INR n.
Proof. intros H. rewrite plus_INR. apply lt_0_INR in H. field. lra. Qed.
Lemma map2_nth {A} (f : A -> A -> A) d : forall xs ys k, (k < length xs)%nat -> (k < length ys)%nat ->
  nth k (map2 f xs ys) d = f (nth k xs d) (nth k ys d).
Proof. induction xs as [|x xs IH]; intros [|y ys] [|k] H1 H2; cbn in *; try lia; [reflexivity|]. apply IH; lia. Qed.
Lemma map2_length {A} (f : A -> A -> A) : forall xs ys, length xs = length ys -> length (map2 f xs ys) = length xs.
Proof. induction xs as [|x xs IH]; intros [|y ys] H; cbn in *; try lia. rewrite IH; lia. Qed.
Definition cscale (c : R) (z : cplx) : cplx := (c * fst z, c * snd z).
Lemma halve_length i xs : length (halve_at i xs) = length xs.
Proof. apply set_nth_length. Qed.
Lemma halve_nth i xs k : (i < length xs)%nat -> nth k (halve_at i xs) (0, 0) = cscale (if Nat.eqb k i then 1 / 2 else 1) (nth k xs (0, 0)).
Proof.
  intros H. unfold halve_at. destruct (Nat.eqb_spec k i) as [->|D].
  - rewrite (nth_error_nth _ _ _ (set_nth_same i (chalf (nth i xs (0, 0))) xs H)). unfold chalf, cscale. f_equal; field.
  - unfold cscale. rewrite !Rmult_1_l, <- surjective_pairing.
    pose proof (set_nth_other i k (chalf (nth i xs (0, 0))) xs (not_eq_sym D)) as E.
    destruct (nth_error xs k) as [z|] eqn:Ez.
    + rewrite (nth_error_nth _ _ _ E), (nth_error_nth _ _ _ Ez). reflexivity.
    + rewrite !nth_overflow; [reflexivity|apply nth_error_None; exact Ez|apply nth_error_None; exact E].
Qed.
Lemma cscale_cscale a b z : cscale a (cscale b z) = cscale (b * a) z.
Proof. unfold cscale. cbn. f_equal; ring. Qed.

(** One line of the filtered spectrum turned back. *)
Lemma line_back (h w : nat -> R) n c k i : (0 < n)%nat ->
  let H := (Rsum (fun t => fst (cmul (h t, 0) (twiddle false (n + n) k t))) n, Rsum (fun t => snd (cmul (h t, 0) (twiddle false (n + n) k t))) n) in
  let W := (Rsum (fun t => fst (cmul (w t, 0) (twiddle false (n + n) k t))) n, Rsum (fun t => snd (cmul (w t, 0) (twiddle false (n + n) k t))) n) in
  fst (cmul (cscale c (cmul H W)) (twiddle true (n + n) i k)) =
  c * Rsum (fun a => Rsum (fun b => h a * w b * cos (PI * INR k * (INR i - INR a - INR b) / INR n)) n) n.
Proof.
  intros Hn H W.
  assert (Eh : H = (Rsum (fun t => h t * cos (PI * INR k * INR t / INR n)) n, - Rsum (fun t => h t * sin (PI * INR k * INR t / INR n)) n)).
  { unfold H. f_equal; [|rewrite <- Rsum_opp]; apply Rsum_ext; intros t _; unfold cmul, twiddle; cbn [fst snd]; rewrite angle_double by exact Hn; ring. }
  assert (Ew : W = (Rsum (fun t => w t * cos (PI * INR k * INR t / INR n)) n, - Rsum (fun t => w t * sin (PI * INR k * INR t / INR n)) n)).
  { unfold W. f_equal; [|rewrite <- Rsum_opp]; apply Rsum_ext; intros t _; unfold cmul, twiddle; cbn [fst snd]; rewrite angle_double by exact Hn; ring. }
  clearbody H W. subst H W. unfold cscale, cmul at 1, twiddle. cbn [fst snd]. rewrite angle_double by exact Hn.
  unfold cmul. cbn [fst snd]. set (C := PI * INR i * INR k / INR n).
  set (hc := fun t => h t * cos (PI * INR k * INR t / INR n)). set (hs := fun t => h t * sin (PI * INR k * INR t / INR n)).
  set (wc := fun t => w t * cos (PI * INR k * INR t / INR n)). set (ws := fun t => w t * sin (PI * INR k * INR t / INR n)).
  replace (c * (Rsum hc n * Rsum wc n - - Rsum hs n * - Rsum ws n) * cos C - c * (Rsum hc n * - Rsum ws n + - Rsum hs n * Rsum wc n) * sin C)
    with (c * (cos C * (Rsum hc n * Rsum wc n) - cos C * (Rsum hs n * Rsum ws n) + sin C * (Rsum hc n * Rsum ws n) + sin C * (Rsum hs n * Rsum wc n))) by ring.
  f_equal. rewrite !Rsum_mult, <- !Rsum_scal, <- Rsum_minus, <- !Rsum_plus. apply Rsum_ext. intros a _.
  rewrite <- !Rsum_scal, <- Rsum_minus, <- !Rsum_plus. apply Rsum_ext. intros b _.
  replace (PI * INR k * (INR i - INR a - INR b) / INR n)
    with (C - (PI * INR k * INR a / INR n + PI * INR k * INR b / INR n)).
  2:{ unfold C. apply lt_0_INR in Hn. field. lra. }
  rewrite cos_minus, cos_plus, sin_plus. unfold hc, hs, wc, ws. ring.
Qed.

(** ** Construction and fills *)
Lemma weights_map alpha : forall n i, weights_from alpha (filter_weight alpha i) (S i) n = map (filter_weight alpha) (seq (S i) n).
Proof.
  induction n as [|n IH]; intros i; [reflexivity|]. cbn [weights_from seq map].
  replace (filter_weight alpha i * ((1 / 2 * alpha + INR (S i - 1)) / INR (S i))) with (filter_weight alpha (S i)).
  - rewrite IH. reflexivity.
  - cbn [filter_weight]. replace (S i - 1)%nat with i by lia. do 2 f_equal. field.
Qed.
(** A generator of [n] samples whose filter is intact. *)
Definition armed (n : nat) (alpha : R) (b : bnoise) : Prop :=
  (0 < n)%nat /\ b_size b = n /\ b_coloured b = (map (fun i => (filter_weight alpha i, 0)) (seq 0 n) ++ repeat (0, 0) n)%list.
Lemma mkBuffered_iff n alpha scale g b : mkBuffered n alpha scale g = Ok b <->
  (0 < n)%nat /\ b = BN n scale (map (fun i => (filter_weight alpha i, 0)) (seq 0 n) ++ repeat (0, 0) n) (repeat 0 n) 0 g 0.
Proof.
  unfold mkBuffered. destruct n as [|n]; [split; [discriminate|intros [H _]; lia]|].
  assert (E : map (fun w => (w, 0)) (1 :: weights_from alpha 1 1 n) = map (fun i => (filter_weight alpha i, 0)) (seq 0 (S n))).
  { cbn [seq map]. f_equal. change 1 with (filter_weight alpha 0) at 1. rewrite (weights_map alpha n 0), map_map. reflexivity. }
  rewrite E. split; [intros X; injection X as <-; split; [lia|reflexivity]|intros [_ ->]; reflexivity].
Qed.
Lemma mkBuffered_empty alpha scale g : mkBuffered 0 alpha scale g = Err Undefined.
Proof. reflexivity. Qed.
Lemma list_eq_nth {A} (d : A) : forall xs ys, length xs = length ys -> (forall k, (k < length xs)%nat -> nth k xs d = nth k ys d) -> xs = ys.
Proof.
  induction xs as [|x xs IH]; intros [|y ys] L H; cbn in L; try lia; [reflexivity|]. f_equal.
  - exact (H 0%nat ltac:(cbn; lia)).
  - apply IH; [lia|]. intros k Hk. exact (H (S k) ltac:(cbn; lia)).
Qed.
Lemma fill_iff n alpha b : armed n alpha b -> fillBuffer b =
  BN n (b_scale b) (b_coloured b) (map (buffer_entry n alpha (fun k => b_gauss b (b_gpos b + k)%nat)) (seq 0 n)) (b_counter b) (b_gauss b) (b_gpos b + n).
Proof.
  intros (Hn & Sz & Cl). unfold fillBuffer. rewrite Sz.
  assert (Lh : length (map (fun i => (filter_weight alpha i, 0)) (seq 0 n)) = n) by (rewrite map_length, seq_length; reflexivity).
  assert (Fc : firstn n (b_coloured b) = map (fun i => (filter_weight alpha i, 0)) (seq 0 n)).
  { rewrite Cl, firstn_app, Lh, Nat.sub_diag. cbn [firstn]. rewrite app_nil_r. rewrite <- Lh at 1. apply firstn_all. }
  assert (Cl2 : (firstn n (b_coloured b) ++ repeat (0, 0) n)%list = b_coloured b) by (rewrite Fc; symmetry; exact Cl).
  cbv zeta. rewrite Cl2. set (white := (map (fun k => (b_gauss b k, 0)) (seq (b_gpos b) n) ++ repeat (0, 0) n)%list).
  set (w := fun k => b_gauss b (b_gpos b + k)%nat).
  assert (Hw : half n (fun t => (w t, 0)) white).
  { apply half_pad; [rewrite map_length, seq_length; reflexivity|]. intros t Ht.
    rewrite (nth_indep _ (0, 0) ((fun k => (b_gauss b k, 0)) 0%nat)) by (rewrite map_length, seq_length; exact Ht).
    rewrite (map_nth (fun k => (b_gauss b k, 0))), seq_nth by exact Ht. reflexivity. }
  assert (Hh : half n (fun t => (filter_weight alpha t, 0)) (b_coloured b)).
  { rewrite Cl. apply half_pad; [exact Lh|]. intros t Ht. rewrite nth_map_seq by exact Ht. reflexivity. }
  set (H := transform false (b_coloured b)). set (W := transform false white).
  assert (LH : length H = (n + n)%nat) by (unfold H; rewrite transform_length; exact (proj1 Hh)).
  assert (LW : length W = (n + n)%nat) by (unfold W; rewrite transform_length; exact (proj1 Hw)).
  set (prod := map2 cmul (firstn n H) (firstn n W)).
  assert (Lp : length prod = n) by (unfold prod; rewrite map2_length; rewrite !firstn_length; lia).
  set (filtered := halve_at (n - 1) (halve_at 0 prod)).
  assert (Hf : half n (fun k => cscale (line_factor n k) (cmul (nth k H (0, 0)) (nth k W (0, 0)))) (filtered ++ repeat (0, 0) n)).
  { apply half_pad; [unfold filtered; rewrite !halve_length; exact Lp|]. intros k Hk. unfold filtered.
    rewrite halve_nth by (rewrite halve_length, Lp; lia). rewrite halve_nth by (rewrite Lp; lia). rewrite cscale_cscale. unfold line_factor.
    f_equal. unfold prod. rewrite map2_nth by (rewrite firstn_length; lia). rewrite !nth_firstn by exact Hk. reflexivity. }
  f_equal. apply (list_eq_nth 0).
  - rewrite !map_length, seq_length, firstn_length, transform_length, (proj1 Hf). lia.
  - intros i Hi. rewrite map_length, firstn_length, transform_length, (proj1 Hf) in Hi.
    rewrite nth_map_seq by lia. rewrite (nth_indep _ 0 ((fun x : cplx => fst x / INR n) (0, 0))).
    2:{ rewrite map_length, firstn_length, transform_length, (proj1 Hf). lia. }
    rewrite (map_nth (fun x : cplx => fst x / INR n)), nth_firstn by lia. rewrite (half_transform _ _ _ _ i Hf) by lia.
    cbn [fst]. unfold buffer_entry, Rdiv. rewrite (Rmult_comm _ (/ INR n)). f_equal. apply Rsum_ext. intros k Hk.
    unfold H, W. rewrite (half_transform _ _ _ _ k Hh), (half_transform _ _ _ _ k Hw) by lia.
    exact (line_back (filter_weight alpha) w n (line_factor n k) k i Hn).
Qed.

(** ** Ticks *)
(** State after [k] ticks. *)
Definition refills (n k : nat) : nat := (k / n + (if Nat.eqb (k mod n) 0 then 0 else 1))%nat.
Definition buffer_of (n : nat) (alpha : R) (g : nat -> R) (q : nat) : list R :=
  map (fun i => coloured_sample n alpha g (q * n + i)) (seq 0 n).
Definition buffered_after (n : nat) (alpha scale : R) (g : nat -> R) (k : nat) : bnoise :=
  BN n scale (map (fun i => (filter_weight alpha i, 0)) (seq 0 n) ++ repeat (0, 0) n)
     (match k with O => repeat 0 n | S p => buffer_of n alpha g (p / n) end) (k mod n) g (refills n k * n).
Lemma block_entry n alpha g q i : (i < n)%nat -> coloured_sample n alpha g (q * n + i) = buffer_entry n alpha (fun b => g (q * n + b)%nat) i.
Proof.
  intros H. unfold coloured_sample. rewrite Nat.div_add_l, Nat.div_small, Nat.add_0_r by lia.
  rewrite Nat.add_comm, Nat.mod_add, Nat.mod_small by lia. reflexivity.
Qed.
Lemma div_cases n k : (0 < n)%nat -> k = (k / n * n + k mod n)%nat /\ (k mod n < n)%nat.
Proof. intros H. pose proof (Nat.div_mod k n ltac:(lia)). pose proof (Nat.mod_upper_bound k n ltac:(lia)). split; [nia|assumption]. Qed.
Lemma div_unique n q r : (r < n)%nat -> ((q * n + r) / n = q /\ (q * n + r) mod n = r)%nat.
Proof.
  intros H. rewrite Nat.div_add_l, Nat.div_small, Nat.add_0_r by lia. rewrite Nat.add_comm, Nat.mod_add, Nat.mod_small by lia. auto.
Qed.
Lemma buffered_after_tick n alpha scale g k : (0 < n)%nat ->
  buffered_tick (buffered_after n alpha scale g k) = (buffered_after n alpha scale g (S k), Ok (scale * coloured_sample n alpha g k)).
Proof.
  intros Hn. destruct (div_cases n k Hn) as [Ek Hr]. set (q := (k / n)%nat) in *. set (r := (k mod n)%nat) in *.
  assert (X : let b := buffered_after n alpha scale g k in
    (if Nat.eqb (b_counter b) 0 then fillBuffer b else b) =
    BN n scale (map (fun i => (filter_weight alpha i, 0)) (seq 0 n) ++ repeat (0, 0) n) (buffer_of n alpha g q) r g (S q * n)).
  { cbn zeta. unfold buffered_after at 1. cbn [b_counter]. fold r. destruct (Nat.eqb_spec r 0) as [R0|R0].
    - rewrite (fill_iff n alpha) by (split; [exact Hn|split; reflexivity]). unfold buffered_after. cbn [b_scale b_coloured b_gauss b_gpos b_counter].
      unfold refills. fold r q. rewrite R0, Nat.eqb_refl, Nat.add_0_r. f_equal; [|lia].
      unfold buffer_of. apply map_ext_in. intros i Hi. apply in_seq in Hi. rewrite block_entry by lia. reflexivity.
    - unfold buffered_after, refills. fold r q. destruct (Nat.eqb_spec r 0); [contradiction|]. destruct k as [|p]; [exfalso; apply R0; unfold r; apply Nat.mod_0_l; lia|].
      f_equal; [|lia]. f_equal. assert (Hp : p = (q * n + (r - 1))%nat) by lia. rewrite Hp. apply (div_unique n q (r - 1)). lia. }
  unfold buffered_tick. cbn zeta in X. rewrite X. cbn [b_result b_counter b_size b_scale b_coloured b_gauss b_gpos].
  assert (E : nth_error (buffer_of n alpha g q) r = Some (coloured_sample n alpha g k)).
  { unfold buffer_of. rewrite nth_error_map. rewrite (nth_error_nth' _ 0%nat) by (rewrite seq_length; exact Hr). rewrite seq_nth by exact Hr. cbn. rewrite <- Ek. reflexivity. }
  rewrite E. destruct (Nat.eqb_spec n 0); [lia|]. f_equal. unfold buffered_after. fold q.
  assert (Sk : S k = (q * n + S r)%nat) by lia. destruct (Nat.eq_dec (S r) n) as [D|D].
  - assert (S k = (S q * n + 0)%nat) as Sk' by lia. destruct (div_unique n (S q) 0 Hn) as [D1 D2]. rewrite <- Sk' in D1, D2.
    f_equal; [rewrite D2, D; apply Nat.mod_same; lia|]. unfold refills. rewrite D1, D2, Nat.eqb_refl. lia.
  - destruct (div_unique n q (S r) ltac:(lia)) as [D1 D2]. rewrite <- Sk in D1, D2.
    f_equal; [rewrite D2; apply Nat.mod_small; lia|]. unfold refills. rewrite D1, D2. cbn [Nat.eqb]. lia.
Qed.
Lemma buffered_calls n alpha scale g b K : mkBuffered n alpha scale g = Ok b ->
  calls buffered_tick K b = (buffered_after n alpha scale g K, Ok (map (fun k => scale * coloured_sample n alpha g k) (seq 0 K))).
Proof.
  intros E. apply mkBuffered_iff in E. destruct E as [Hn ->].
  pose proof (calls_seq buffered_tick (buffered_after n alpha scale g) (fun k => scale * coloured_sample n alpha g k)
    (fun k => buffered_after_tick n alpha scale g k Hn) K 0) as X. cbn [Nat.add] in X. rewrite <- X.
  unfold buffered_after. unfold refills. rewrite Nat.mod_0_l, Nat.div_0_l by lia. reflexivity.
Qed.

(** ** What the buffer contains *)
(** 2 sin(x/2) (cos x + ... + cos (m x)) telescopes. *)
Lemma cos_sum x m : 2 * sin (x / 2) * Rsum (fun k => cos (INR (S k) * x)) m = sin ((INR m + 1 / 2) * x) - sin (x / 2).
Proof.
  induction m as [|m IH]; [cbn [Rsum INR]; replace ((0 + 1 / 2) * x) with (x / 2) by field; ring|].
  cbn [Rsum]. rewrite Rmult_plus_distr_l, IH. rewrite S_INR.
  replace ((INR m + 1 / 2) * x) with ((INR m + 1) * x - x / 2) by field.
  replace ((INR m + 1 + 1 / 2) * x) with ((INR m + 1) * x + x / 2) by field. rewrite sin_minus, sin_plus. ring.
Qed.
Lemma sin_IZR_PI z : sin (IZR z * PI) = 0.
Proof. apply sin_eq_0_1. exists z. reflexivity. Qed.
(** The lines 1 .. N-1 at an integer distance. *)
Lemma kernel_inner N (d : Z) : (0 < N)%nat -> (- Z.of_nat (2 * N) < d < Z.of_nat (2 * N))%Z -> d <> 0%Z ->
  Rsum (fun k => cos (INR (S k) * (PI * IZR d / INR N))) (N - 1) = - (1 + cos (PI * IZR d)) / 2.
Proof.
  intros HN Hd Dz. set (x := PI * IZR d / INR N). pose proof (lt_0_INR _ HN) as NN.
  assert (Sx : sin (x / 2) <> 0).
  { intros S0. apply sin_eq_0_0 in S0. destruct S0 as [z Hz]. unfold x in Hz.
    assert (Hq : IZR d = IZR z * (2 * INR N)).
    { apply Rmult_eq_reg_l with (PI / (2 * INR N)). 2:{ pose proof PI_RGT_0. apply Rgt_not_eq, Rdiv_lt_0_compat; lra. }
      replace (PI / (2 * INR N) * IZR d) with (PI * IZR d / INR N / 2) by (field; lra). rewrite Hz. field. lra. }
    rewrite INR_IZR_INZ, <- !mult_IZR in Hq. apply eq_IZR in Hq.
    assert (D2 : (Z.of_nat (2 * N) = 2 * Z.of_nat N)%Z) by lia. rewrite D2 in Hd. destruct (Z.lt_trichotomy z 0) as [|[|]]; nia. }
  pose proof (cos_sum x (N - 1)) as E.
  assert (Ee : (INR (N - 1) + 1 / 2) * x = PI * IZR d - x / 2).
  { rewrite minus_INR by lia. unfold x. cbn [INR]. field. lra. }
  rewrite Ee, sin_minus in E. rewrite (Rmult_comm PI (IZR d)), sin_IZR_PI in E. rewrite (Rmult_comm PI (IZR d)).
  apply Rmult_eq_reg_l with (2 * sin (x / 2)); [|lra]. rewrite E. field.
Qed.
Lemma kernel_zero N : (0 < N)%nat -> Rsum (fun k => cos (INR (S k) * (PI * 0 / INR N))) (N - 1) = INR N - 1.
Proof.
  intros HN. rewrite (Rsum_ext _ (fun _ => 1)).
  - replace (INR N - 1) with (INR (N - 1)) by (rewrite minus_INR by lia; cbn [INR]; ring). generalize (N - 1)%nat. induction n as [|n IH]; [reflexivity|]. cbn [Rsum]. rewrite IH, S_INR. ring.
  - intros k _. unfold Rdiv. rewrite Rmult_0_r, Rmult_0_l, Rmult_0_r. apply cos_0.
Qed.
(** The weight of the pair (a, b) in entry i. *)
Definition leak (N : nat) (d : Z) : R := cos (PI * IZR d) * (cos (PI * IZR d / (2 * INR N))) ^ 2 / INR N.
Lemma kernel N (d : Z) : (2 <= N)%nat -> (- Z.of_nat (2 * N) < d < Z.of_nat (2 * N))%Z ->
  / INR N * Rsum (fun k => line_factor N k * cos (PI * INR k * IZR d / INR N)) N = (if Z.eqb d 0 then 1 else 0) - leak N d.
Proof.
  intros HN Hd. pose proof (lt_0_INR N ltac:(lia)) as NN.
  assert (E : Rsum (fun k => line_factor N k * cos (PI * INR k * IZR d / INR N)) N =
    1 / 2 + Rsum (fun k => cos (INR (S k) * (PI * IZR d / INR N))) (N - 1) - 1 / 2 * cos (PI * INR (N - 1) * IZR d / INR N)).
  { destruct N as [|[|M]]; [lia|lia|]. replace (S (S M) - 1)%nat with (S M) by lia. rewrite Rsum_head. cbn [Rsum].
    replace (line_factor (S (S M)) 0) with (1 / 2) by (unfold line_factor; replace (S (S M) - 1)%nat with (S M) by lia; cbn [Nat.eqb]; ring).
    replace (line_factor (S (S M)) (S M)) with (1 / 2) by (unfold line_factor; replace (S (S M) - 1)%nat with (S M) by lia; rewrite Nat.eqb_refl; cbn [Nat.eqb]; ring).
    replace (cos (PI * INR 0 * IZR d / INR (S (S M)))) with 1.
    2:{ cbn [INR]. unfold Rdiv. rewrite Rmult_0_r, !Rmult_0_l. symmetry. apply cos_0. }
    rewrite (Rsum_ext (fun k => line_factor (S (S M)) (S k) * cos (PI * INR (S k) * IZR d / INR (S (S M))))
                      (fun k => cos (INR (S k) * (PI * IZR d / INR (S (S M)))))).
    - replace (INR (S M) * (PI * IZR d / INR (S (S M)))) with (PI * INR (S M) * IZR d / INR (S (S M))) by (field; lra). field.
    - intros k Hk. unfold line_factor. replace (S (S M) - 1)%nat with (S M) by lia. cbn [Nat.eqb]. destruct (Nat.eqb_spec k M); [lia|].
      rewrite !Rmult_1_l. f_equal. field. lra. }
  assert (C : cos (PI * INR (N - 1) * IZR d / INR N) = cos (PI * IZR d) * (2 * (cos (PI * IZR d / (2 * INR N))) ^ 2 - 1)).
  { rewrite minus_INR by lia. cbn [INR].
    replace (PI * (INR N - 1) * IZR d / INR N) with (IZR d * PI - 2 * (PI * IZR d / (2 * INR N))) by (field; lra).
    rewrite cos_minus, sin_IZR_PI, cos_2a_cos. rewrite (Rmult_comm PI (IZR d)). ring. }
  rewrite E, C. unfold leak. destruct (Z.eqb_spec d 0) as [->|D].
  - rewrite kernel_zero by lia. replace (PI * 0 / (2 * INR N)) with 0 by (field; lra). rewrite Rmult_0_r, cos_0. field. lra.
  - rewrite kernel_inner by lia. generalize (cos (PI * IZR d)) (cos (PI * IZR d / (2 * INR N))). intros u v. field. lra.
Qed.
(** Causal filtering of the draws, minus what the dropped and halved lines carried. *)
Lemma buffer_convolution N alpha w i : (2 <= N)%nat -> (i < N)%nat -> buffer_entry N alpha w i =
  convolution (filter_weight alpha) w i -
  Rsum (fun a => Rsum (fun b => filter_weight alpha a * w b * leak N (Z.of_nat i - Z.of_nat a - Z.of_nat b)) N) N.
Proof.
  intros HN Hi. unfold buffer_entry.
  rewrite (Rsum_ext (fun k => line_factor N k * _)
    (fun k => Rsum (fun a => Rsum (fun b => filter_weight alpha a * w b * (line_factor N k * cos (PI * INR k * IZR (Z.of_nat i - Z.of_nat a - Z.of_nat b) / INR N))) N) N)).
  2:{ intros k _. rewrite <- Rsum_scal. apply Rsum_ext. intros a _. rewrite <- Rsum_scal. apply Rsum_ext. intros b _.
      rewrite !minus_IZR, <- !INR_IZR_INZ. ring. }
  rewrite Rsum_swap, <- Rsum_scal.
  rewrite (Rsum_ext _ (fun a => Rsum (fun b => filter_weight alpha a * w b * (if Z.eqb (Z.of_nat i - Z.of_nat a - Z.of_nat b) 0 then 1 else 0)) N
    - Rsum (fun b => filter_weight alpha a * w b * leak N (Z.of_nat i - Z.of_nat a - Z.of_nat b)) N)).
  2:{ intros a Ha. rewrite Rsum_swap, <- Rsum_scal, <- Rsum_minus. apply Rsum_ext. intros b Hb.
      rewrite Rsum_scal. rewrite <- Rmult_minus_distr_l, <- (kernel N (Z.of_nat i - Z.of_nat a - Z.of_nat b) HN) by lia. ring. }
  rewrite Rsum_minus. f_equal. unfold convolution. replace N with (S i + (N - S i))%nat at 1 by lia. rewrite Rsum_split.
  match goal with |- ?u + ?v = _ => assert (Z0 : v = 0) end.
  2:{ rewrite Z0, Rplus_0_r. clear Z0. apply Rsum_ext. intros a Ha. rewrite (Rsum_single _ N (i - a)).
    2: lia.
    2:{ intros b Hb D. destruct (Z.eqb_spec (Z.of_nat i - Z.of_nat a - Z.of_nat b) 0); [lia|ring]. }
    destruct (Z.eqb_spec (Z.of_nat i - Z.of_nat a - Z.of_nat (i - a)) 0); [ring|lia]. }
  apply Rsum_zero. intros a Ha. apply Rsum_zero. intros b Hb. destruct (Z.eqb_spec (Z.of_nat i - Z.of_nat (S i + a) - Z.of_nat b) 0); [lia|ring].
Qed.
Lemma buffer_single alpha w : buffer_entry 1 alpha w 0 = w 0%nat / 4.
Proof.
  unfold buffer_entry, line_factor. cbn [Rsum Nat.eqb Nat.sub filter_weight INR]. replace (PI * 0 * (0 - 0 - 0) / 1) with 0 by field. rewrite cos_0. field.
Qed.
(** Filters of white and brown noise. *)
Lemma weight_white i : filter_weight 0 (S i) = 0.
Proof. induction i as [|i IH]; [cbn; field|]. change (filter_weight 0 (S (S i))) with (filter_weight 0 (S i) * ((0 / 2 + INR (S i)) / INR (S (S i)))). rewrite IH. ring. Qed.
Lemma weight_brown i : filter_weight 2 i = 1.
Proof. induction i as [|i IH]; [reflexivity|]. cbn [filter_weight]. rewrite IH, S_INR. pose proof (pos_INR i). field. lra. Qed.
Lemma weight_pos alpha i : 0 < alpha -> 0 < filter_weight alpha i.
Proof.
  intros H. induction i as [|i IH]; [cbn; lra|]. cbn [filter_weight]. apply Rmult_lt_0_compat; [exact IH|]. pose proof (pos_INR i). pose proof (lt_0_INR (S i) ltac:(lia)).
  apply Rdiv_lt_0_compat; lra.
Qed.
Lemma weight_decreasing alpha i : 0 < alpha <= 2 -> filter_weight alpha (S i) <= filter_weight alpha i.
Proof.
  intros H. cbn [filter_weight]. pose proof (weight_pos alpha i ltac:(lra)). pose proof (pos_INR i). pose proof (lt_0_INR (S i) ltac:(lia)).
  assert ((alpha / 2 + INR i) / INR (S i) <= 1).
  { apply Rmult_le_reg_r with (INR (S i)); [assumption|]. unfold Rdiv at 1. rewrite Rmult_assoc, Rinv_l by lra. rewrite S_INR. lra. }
  nra.
Qed.
(** With a flat filter the buffer is not the draws. *)
Lemma white_two w : buffer_entry 2 0 w 0 = w 0%nat / 2 + w 1%nat / 4.
Proof.
  unfold buffer_entry, line_factor. cbn [Rsum Nat.eqb Nat.sub]. rewrite weight_white. cbn [filter_weight]. cbn [INR].
  replace (PI * 0 * (0 - 0 - 0) / (1 + 1)) with 0 by field. replace (PI * 0 * (0 - 0 - 1) / (1 + 1)) with 0 by field.
  replace (PI * 1 * (0 - 0 - 0) / (1 + 1)) with 0 by field. replace (PI * 1 * (0 - 0 - 1) / (1 + 1)) with (- (PI / 2)) by field.
  rewrite cos_neg, cos_PI2, cos_0. field.
Qed.
