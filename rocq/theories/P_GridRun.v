(** The rows of the binary64 grids. *)
From Verif Require Export P_Grid.
From Flocq Require Import Relative Plus_error.
Open Scope R_scope.
Open Scope st_scope.

Definition grid_row (dt : b64) (w : Z) (k : nat) : b64 * bool := (b64_mult (b64_of_Z (Z.of_nat k)) dt, Z.eqb (Z.of_nat k mod w) 0).
Lemma rbind_ok {A B} (r : result A) (f : A -> result B) b : rbind r f = Ok b <-> exists a, r = Ok a /\ f a = Ok b.
Proof. destruct r as [a|e]; cbn; split; [intros H; exists a; auto|intros (a' & E & H); injection E as <-; exact H|discriminate|intros (a' & E & _); discriminate]. Qed.
Lemma loop_iff dt w n : forall i rows, grid_loop dt w n (Z.of_nat i) = Ok rows <-> (n = 0%nat \/ w <> 0%Z) /\ rows = map (grid_row dt w) (seq i n).
Proof.
  induction n as [|n IH]; intros i rows; cbn [grid_loop seq map].
  - split; [intros E; split; [left; reflexivity|congruence]|intros [_ ->]; reflexivity].
  - destruct (Z.eqb_spec w 0) as [W|W].
    + split; [discriminate|]. intros [[X|X] _]; [discriminate|contradiction].
    + rewrite rbind_ok. replace (Z.of_nat i + 1)%Z with (Z.of_nat (S i)) by lia. setoid_rewrite IH. split.
      * intros (rest & [_ ->] & E). split; [right; exact W|]. injection E as <-. reflexivity.
      * intros [_ ->]. eexists. split; [split; [right; exact W|reflexivity]|]. reflexivity.
Qed.
Lemma guard_ok dt W u : is_finite dt = true -> is_finite W = true -> step_guard dt W = Ok u <-> B2R dt <= B2R W.
Proof.
  intros FD FW. unfold step_guard. rewrite (Bltb_correct 53 1024 W dt FW FD). destruct (Rlt_bool_spec (B2R W) (B2R dt)); destruct u; split; intros X; first [discriminate|reflexivity|lra].
Qed.
Lemma junction_iff T dt W rows : is_finite dt = true -> junction_grid T dt W = Ok rows <->
  is_finite T = true /\ is_finite W = true /\ B2R dt <> 0 /\ B2R dt <= B2R W /\ (0 <= whole_steps (B2R T) (B2R dt) < 2 ^ 32)%Z /\ (0 <= whole_steps (B2R W) (B2R dt) < 2 ^ 32)%Z /\
  (whole_steps (B2R T) (B2R dt) = 0 \/ whole_steps (B2R W) (B2R dt) <> 0)%Z /\
  rows = map (grid_row dt (whole_steps (B2R W) (B2R dt))) (seq 0 (Z.to_nat (whole_steps (B2R T) (B2R dt)))).
Proof.
  intros FD. assert (NI : forall s, dt <> B754_infinity s) by (intros s ->; discriminate). unfold junction_grid. rewrite rbind_ok. setoid_rewrite rbind_ok. setoid_rewrite rbind_ok. split.
  - intros (g & G & N & HN & w & HW & L). destruct (cast_inputs T dt N (or_introl HN)) as [FT [NZ|[s X]]]; [|destruct (NI s X)]. destruct (cast_inputs W dt w (or_introl HW)) as [FW _].
    apply guard_ok in G; [|exact FD|exact FW]. apply uint_iff in HN; [|exact FT|exact NZ]. apply uint_iff in HW; [|exact FW|exact NZ]. destruct HN as [-> BN], HW as [-> BW]. apply (loop_iff _ _ _ 0) in L. destruct L as [L ->].
    do 6 (split; [assumption|]). split; [|reflexivity]. destruct L as [L|L]; [left; lia|right; exact L].
  - intros (FT & FW & NZ & G & BN & BW & ND & ->). exists tt. split; [apply guard_ok; assumption|]. eexists. split; [apply uint_iff; [exact FT|exact NZ|split; [reflexivity|exact BN]]|].
    eexists. split; [apply uint_iff; [exact FW|exact NZ|split; [reflexivity|exact BW]]|]. apply (loop_iff _ _ _ 0). split; [|reflexivity]. destruct ND as [ND|ND]; [left; rewrite ND; reflexivity|right; exact ND].
Qed.
Lemma stack_iff T dt W rows : is_finite dt = true -> stack_grid T dt W = Ok rows <->
  is_finite T = true /\ is_finite W = true /\ B2R dt <> 0 /\ B2R dt <= B2R W /\ (- 2 ^ 31 <= whole_steps (B2R T) (B2R dt) < 2 ^ 31)%Z /\ (- 2 ^ 31 <= whole_steps (B2R W) (B2R dt) < 2 ^ 31)%Z /\
  (whole_steps (B2R T) (B2R dt) = 0 \/ whole_steps (B2R W) (B2R dt) <> 0)%Z /\
  rows = map (grid_row dt (whole_steps (B2R W) (B2R dt) mod 2 ^ 32)) (seq 0 (Z.to_nat (whole_steps (B2R T) (B2R dt) mod 2 ^ 32))).
Proof.
  intros FD. assert (NI : forall s, dt <> B754_infinity s) by (intros s ->; discriminate).
  assert (MZ : forall z, (- 2 ^ 31 <= z < 2 ^ 31)%Z -> (z mod 2 ^ 32 = 0)%Z <-> z = 0%Z).
  { intros z B. split; [|intros ->; reflexivity]. intros M. apply Z.mod_divide in M; [|lia]. destruct M as [q M]. lia. }
  unfold stack_grid. rewrite rbind_ok. setoid_rewrite rbind_ok. setoid_rewrite rbind_ok. split.
  - intros (w & HW & N & HN & g & G & L). destruct (cast_inputs T dt N (or_intror HN)) as [FT [NZ|[s X]]]; [|destruct (NI s X)]. destruct (cast_inputs W dt w (or_intror HW)) as [FW _].
    apply guard_ok in G; [|exact FD|exact FW]. apply int_iff in HN; [|exact FT|exact NZ]. apply int_iff in HW; [|exact FW|exact NZ]. destruct HN as [BN ->], HW as [BW ->]. apply (loop_iff _ _ _ 0) in L. destruct L as [L ->].
    do 6 (split; [assumption|]). split; [|reflexivity]. rewrite <- (MZ _ BN), <- (MZ _ BW). destruct L as [L|L]; [left|right; exact L].
    assert (B := Z.mod_pos_bound (whole_steps (B2R T) (B2R dt)) (2 ^ 32) ltac:(lia)). lia.
  - intros (FT & FW & NZ & G & BN & BW & ND & ->). eexists. split; [apply int_iff; [exact FW|exact NZ|split; [exact BW|reflexivity]]|]. eexists. split; [apply int_iff; [exact FT|exact NZ|split; [exact BN|reflexivity]]|].
    exists tt. split; [apply guard_ok; assumption|]. apply (loop_iff _ _ _ 0). split; [|reflexivity]. rewrite (MZ _ BW). destruct ND as [ND|ND]; [left; rewrite ND; reflexivity|right; exact ND].
Qed.
(** Nonnegative counts below 2^31: the two agree. *)
Lemma grids_agree T dt W rows : is_finite dt = true -> (0 <= whole_steps (B2R T) (B2R dt) < 2 ^ 31)%Z -> (0 <= whole_steps (B2R W) (B2R dt) < 2 ^ 31)%Z -> stack_grid T dt W = Ok rows <-> junction_grid T dt W = Ok rows.
Proof.
  intros FD BN BW. rewrite (stack_iff _ _ _ _ FD), (junction_iff _ _ _ _ FD). rewrite !Z.mod_small by lia. intuition lia.
Qed.

(** ** Positive steps *)
Lemma quotient_small T dt : 0 < dt -> (0 <= whole_steps T dt < 2 ^ 32)%Z -> T / dt < bpow radix2 52.
Proof.
  intros D [_ U]. destruct (Rlt_le_dec (T / dt) (bpow radix2 52)) as [L|G]; [exact L|exfalso]. unfold whole_steps in U.
  assert (R : bpow radix2 52 <= rnd (T / dt)). { rewrite <- (rnd_id (bpow radix2 52)); [apply rnd_le, G|]. rewrite <- (pow2 52) by lia. apply format_Z. lia. }
  rewrite Ztrunc_floor in U by (apply Rle_trans with (2 := R), bpow_ge_0). assert (2 ^ 52 <= Zfloor (rnd (T / dt)))%Z by (apply Zfloor_lub; rewrite (pow2 52) by lia; exact R). lia.
Qed.
Lemma time_below T dt k : 0 < dt -> (0 <= whole_steps T dt < 2 ^ 32)%Z -> (0 <= k < whole_steps T dt)%Z -> IZR k * dt <= T.
Proof.
  intros D B K. assert (QS := quotient_small T dt D B). destruct (Rle_lt_dec 0 (T / dt)) as [P|N].
  - destruct (floor_bounds (T / dt) (conj P QS)) as [[_ F] _]. unfold whole_steps in K. assert (KF : (k <= Zfloor (T / dt))%Z) by lia. apply IZR_le in KF. assert (L := Zfloor_lb (T / dt)).
    assert (KQ : IZR k <= T / dt) by lra. apply (Rmult_le_compat_r dt) in KQ; [|lra]. replace (T / dt * dt) with T in KQ by (field; lra). exact KQ.
  - exfalso. assert (R : rnd (T / dt) <= 0) by (rewrite <- rnd_0; apply rnd_le; lra). unfold whole_steps in K. rewrite Ztrunc_ceil in K by exact R. assert (Zceil (rnd (T / dt)) <= 0)%Z by (apply Zceil_glb; exact R). lia.
Qed.
Lemma row_time (T dt : b64) k : is_finite T = true -> is_finite dt = true -> 0 < B2R dt -> (0 <= whole_steps (B2R T) (B2R dt) < 2 ^ 32)%Z -> (Z.of_nat k < whole_steps (B2R T) (B2R dt))%Z ->
  represents (b64_mult (b64_of_Z (Z.of_nat k)) dt) (rnd (IZR (Z.of_nat k) * B2R dt)) /\ 0 <= rnd (IZR (Z.of_nat k) * B2R dt) <= B2R T.
Proof.
  intros FT FD D B K. destruct (of_Z_value (Z.of_nat k)) as [FZ VZ]; [lia|]. assert (TB := time_below (B2R T) (B2R dt) (Z.of_nat k) D B ltac:(lia)).
  assert (K0 : 0 <= IZR (Z.of_nat k)) by (apply (IZR_le 0); lia).
  assert (R : 0 <= rnd (IZR (Z.of_nat k) * B2R dt) <= B2R T).
  { split; [rewrite <- rnd_0; apply rnd_le; nra|]. rewrite <- (rnd_id (B2R T)) by apply format_B2R. apply rnd_le, TB. }
  split; [|exact R]. rewrite <- VZ. apply mult_value; [exact FZ|exact FD|]. rewrite VZ, Rabs_pos_eq by apply R.
  apply Rle_lt_trans with (B2R T); [apply R|]. apply Rle_lt_trans with (Rabs (B2R T)); [apply Rle_abs|]. exact (abs_B2R_lt_emax 53 1024 T).
Qed.
Lemma safe_modulus (dt W : b64) : 0 < B2R dt -> B2R dt <= B2R W -> (1 <= whole_steps (B2R W) (B2R dt))%Z.
Proof.
  intros D L. unfold whole_steps. assert (Q : 1 <= B2R W / B2R dt) by (apply (Rmult_le_reg_r (B2R dt)); [exact D|]; replace (B2R W / B2R dt * B2R dt) with (B2R W) by (field; lra); lra).
  assert (R : 1 <= rnd (B2R W / B2R dt)) by (rewrite <- (rnd_Z 1) by lia; apply rnd_le, Q). rewrite Ztrunc_floor by lra. apply Zfloor_lub. exact R.
Qed.
Lemma nth_map_seq {A} (f : nat -> A) n k d : (k < n)%nat -> nth k (map f (seq 0 n)) d = f k.
Proof. intros H. rewrite (nth_indep _ d (f 0%nat)) by (rewrite map_length, seq_length; exact H). rewrite map_nth, seq_nth by exact H. reflexivity. Qed.
Lemma rows_facts (T dt W : b64) rows : is_finite dt = true -> 0 < B2R dt -> junction_grid T dt W = Ok rows ->
  Z.of_nat (length rows) = whole_steps (B2R T) (B2R dt) /\ (1 <= whole_steps (B2R W) (B2R dt))%Z /\
  forall k d, (k < length rows)%nat -> represents (fst (nth k rows d)) (rnd (IZR (Z.of_nat k) * B2R dt)) /\ 0 <= rnd (IZR (Z.of_nat k) * B2R dt) <= B2R T /\
    (snd (nth k rows d) = true <-> (whole_steps (B2R W) (B2R dt) | Z.of_nat k)%Z).
Proof.
  intros FD D E. apply junction_iff in E; [|exact FD]. destruct E as (FT & FW & NZ & G & BN & BW & _ & ->). assert (W1 := safe_modulus dt W D G). rewrite map_length, seq_length.
  split; [lia|]. split; [exact W1|]. intros k d K. rewrite nth_map_seq by exact K. cbn [grid_row fst snd]. destruct (row_time T dt k FT FD D BN ltac:(lia)) as [R1 R2]. split; [exact R1|]. split; [exact R2|].
  rewrite Z.eqb_eq. apply Z.mod_divide. lia.
Qed.
(** *** Logged rows *)
Lemma every {A} (f : nat -> A) w n : (0 < w)%nat -> map fst (filter snd (map (fun k => (f k, Nat.eqb (k mod w) 0)) (seq 0 n))) = map (fun j => f (j * w)%nat) (seq 0 ((n + w - 1) / w)).
Proof.
  intros W. induction n as [|n IH]; [cbn; rewrite Nat.div_small by lia; reflexivity|]. rewrite seq_S, map_app, filter_app, map_app, IH. cbn [map filter snd]. rewrite Nat.add_0_l.
  assert (E := Nat.div_mod n w ltac:(lia)). assert (M := Nat.mod_upper_bound n w ltac:(lia)). destruct (Nat.eqb_spec (n mod w) 0) as [Z|Z].
  - assert (A1 : ((n + w - 1) / w = n / w)%nat). { symmetry. apply (Nat.div_unique _ _ _ (w - 1)); lia. }
    assert (A2 : ((S n + w - 1) / w = S (n / w))%nat). { symmetry. apply (Nat.div_unique _ _ _ 0); lia. }
    rewrite A1, A2, seq_S, map_app. cbn [map fst]. rewrite Nat.add_0_l. do 3 f_equal. lia.
  - assert (A1 : ((n + w - 1) / w = S (n / w))%nat). { symmetry. apply (Nat.div_unique _ _ _ (n mod w - 1)); lia. }
    assert (A2 : ((S n + w - 1) / w = S (n / w))%nat). { symmetry. apply (Nat.div_unique _ _ _ (n mod w)); lia. }
    rewrite A1, A2. apply app_nil_r.
Qed.
Lemma logged_facts (T dt W : b64) rows : is_finite dt = true -> 0 < B2R dt -> junction_grid T dt W = Ok rows ->
  let w := Z.to_nat (whole_steps (B2R W) (B2R dt)) in
  length (logged rows) = ((length rows + w - 1) / w)%nat /\
  forall j d, (j < length (logged rows))%nat -> (j * w < length rows)%nat /\ represents (nth j (logged rows) d) (rnd (IZR (Z.of_nat (j * w)) * B2R dt)).
Proof.
  intros FD D E w. destruct (rows_facts T dt W rows FD D E) as (LN & W1 & V). assert (WP : (0 < w)%nat) by (unfold w; lia).
  assert (ER : logged rows = map (fun j => b64_mult (b64_of_Z (Z.of_nat (j * w))) dt) (seq 0 ((length rows + w - 1) / w))).
  { apply junction_iff in E; [|exact FD]. destruct E as (_ & _ & _ & _ & _ & _ & _ & ->). rewrite map_length, seq_length. unfold logged.
    rewrite <- (every (fun k => b64_mult (b64_of_Z (Z.of_nat k)) dt) w) by exact WP. f_equal. f_equal. apply map_ext. intros k. unfold grid_row. f_equal.
    replace (whole_steps (B2R W) (B2R dt)) with (Z.of_nat w) by (unfold w; lia). destruct (Nat.eqb_spec (k mod w) 0) as [Z|Z]; rewrite <- Nat2Z.inj_mod; [rewrite Z; reflexivity|]. apply Z.eqb_neq. lia. }
  rewrite ER, map_length, seq_length. split; [reflexivity|]. intros j d J.
  assert (JB : (j * w < length rows)%nat). { assert (B := Nat.mul_div_le (length rows + w - 1) w ltac:(lia)). nia. }
  split; [exact JB|]. rewrite nth_map_seq by exact J. apply junction_iff in E; [|exact FD]. destruct E as (FT & FW & NZ & G & BN & BW & _ & ->). rewrite map_length, seq_length in JB.
  apply (row_time T dt (j * w) FT FD D BN). lia.
Qed.
(** *** The times increase and stay close to the exact grid *)
Lemma rnd_close x : bpow radix2 (-1022) <= x -> Rabs (rnd x - x) <= u53 * x.
Proof.
  intros H. assert (P : 0 < x) by (apply Rlt_le_trans with (2 := H), bpow_gt_0). destruct (rel_error x) as (e & E & ->); [rewrite Rabs_pos_eq by lra; exact H|].
  replace (x * (1 + e) - x) with (x * e) by ring. rewrite Rabs_mult, (Rabs_pos_eq x) by lra. nra.
Qed.
Lemma times_close dt k : bpow radix2 (-1022) <= dt -> (0 <= k)%Z -> Rabs (rnd (IZR k * dt) - IZR k * dt) <= u53 * (IZR k * dt).
Proof.
  intros D K. destruct (Z.eq_dec k 0) as [->|N]; [rewrite Rmult_0_l, rnd_0, Rminus_0_r, Rabs_R0; lra|]. apply rnd_close. assert (1 <= IZR k) by (apply (IZR_le 1); lia).
  assert (P : 0 < dt) by (apply Rlt_le_trans with (2 := D), bpow_gt_0). nra.
Qed.
Lemma times_increase dt i j : bpow radix2 (-1022) <= dt -> (0 <= i < j)%Z -> (j < 2 ^ 50)%Z -> rnd (IZR i * dt) < rnd (IZR j * dt).
Proof.
  intros D [I J] B. assert (P : 0 < dt) by (apply Rlt_le_trans with (2 := D), bpow_gt_0). assert (CI := times_close dt i D I). assert (CJ := times_close dt j D ltac:(lia)).
  assert (U : u53 = / 9007199254740992) by (rewrite u53_eq; reflexivity). rewrite U in *. apply Rabs_le_inv in CI, CJ.
  assert (IJ : IZR i + 1 <= IZR j) by (rewrite <- plus_IZR; apply IZR_le; lia). assert (JB : IZR j <= 1125899906842624) by (apply IZR_le; lia). assert (I0 : 0 <= IZR i) by (apply (IZR_le 0); exact I).
  nra.
Qed.
