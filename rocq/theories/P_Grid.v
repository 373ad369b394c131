(** Proofs about the binary64 time grid. *)
From Verif Require Export S_Grid.
From Flocq Require Import Relative Plus_error.
Open Scope R_scope.
Open Scope st_scope.

Notation rnd := nearest_double.
#[local] Instance vexp : Valid_exp (FLT_exp (-1074) 53) := FLT_exp_valid (-1074) 53.
Definition format (x : R) : Prop := generic_format radix2 (FLT_exp (-1074) 53) x.
Lemma rnd_le x y : x <= y -> rnd x <= rnd y.
Proof. apply round_le; auto with typeclass_instances. Qed.
Lemma rnd_id x : format x -> rnd x = x.
Proof. apply round_generic; auto with typeclass_instances. Qed.
Lemma format_B2R (b : b64) : format (B2R b).
Proof. exact (generic_format_B2R 53 1024 b). Qed.
Lemma rnd_format x : format (rnd x).
Proof. apply generic_format_round; auto with typeclass_instances. Qed.
Lemma pow53 : IZR (2 ^ 53) = bpow radix2 53.
Proof. exact (IZR_Zpower radix2 53 ltac:(lia)). Qed.
Lemma pow2 n : (0 <= n)%Z -> IZR (2 ^ n) = bpow radix2 n.
Proof. intros H. exact (IZR_Zpower radix2 n H). Qed.
Lemma format_scaled m e : (Z.abs m <= 2 ^ 53)%Z -> (-1074 <= e)%Z -> format (IZR m * bpow radix2 e).
Proof.
  intros M E. destruct (Z.eq_dec (Z.abs m) (2 ^ 53)) as [Q|Q].
  - apply generic_format_FLT. assert (m = 2 ^ 53 \/ m = - 2 ^ 53)%Z as [-> | ->] by lia.
    + exists (Float radix2 1 (53 + e)); unfold F2R; cbn [Fnum Fexp]; [|reflexivity|lia]. rewrite bpow_plus, pow53. ring.
    + exists (Float radix2 (-1) (53 + e)); unfold F2R; cbn [Fnum Fexp]; [|reflexivity|lia]. rewrite bpow_plus, opp_IZR, pow53. ring.
  - apply generic_format_FLT. exists (Float radix2 m e); unfold F2R; cbn [Fnum Fexp]; [reflexivity| |exact E]. change (radix2 ^ 53)%Z with (2 ^ 53)%Z. lia.
Qed.
Lemma format_Z z : (Z.abs z <= 2 ^ 53)%Z -> format (IZR z).
Proof. intros H. replace (IZR z) with (IZR z * bpow radix2 0) by (cbn; ring). apply format_scaled; [exact H|lia]. Qed.
Lemma rnd_Z z : (Z.abs z <= 2 ^ 53)%Z -> rnd (IZR z) = IZR z.
Proof. intros H. apply rnd_id, format_Z, H. Qed.
Lemma rnd_0 : rnd 0 = 0.
Proof. apply (rnd_Z 0). lia. Qed.
Lemma rnd_opp x : rnd (- x) = - rnd x.
Proof. apply round_NE_opp. Qed.

(** ** Operations *)
Lemma div_finite (x y : b64) : is_finite x = true -> B2R y <> 0 ->
  (Rabs (rnd (B2R x / B2R y)) < bpow radix2 1024 -> represents (b64_div x y) (rnd (B2R x / B2R y))) /\
  (bpow radix2 1024 <= Rabs (rnd (B2R x / B2R y)) -> is_finite (b64_div x y) = false).
Proof.
  intros F NZ. assert (C := Bdiv_correct 53 1024 _ _ mode_NE x y NZ). change (round radix2 (SpecFloat.fexp 53 1024) (round_mode mode_NE) (B2R x / B2R y)) with (rnd (B2R x / B2R y)) in C.
  split; intros H.
  - rewrite Rlt_bool_true in C by exact H. destruct C as (C1 & C2 & _). split; [rewrite <- F; exact C2|exact C1].
  - rewrite Rlt_bool_false in C by exact H. unfold b64_div. destruct (Bdiv mode_NE x y); cbn in C |- *; try reflexivity; destruct (xorb (Bsign x) (Bsign y)); discriminate.
Qed.
Lemma finite_nonzero sy my ey Hy : B2R (B754_finite sy my ey Hy : b64) <> 0.
Proof. cbn. apply F2R_neq_0. destruct sy; discriminate. Qed.
Lemma div_inputs (x y : b64) : is_finite (b64_div x y) = true -> is_finite x = true /\ (B2R y <> 0 \/ exists s, y = B754_infinity s).
Proof.
  unfold b64_div. destruct x as [sx|sx| |sx mx ex Hx], y as [sy|sy| |sy my ey Hy]; try discriminate; intros _; (split; [reflexivity|]);
  first [right; eexists; reflexivity|left; apply finite_nonzero].
Qed.
Lemma of_Z_value z : (Z.abs z <= 2 ^ 53)%Z -> represents (b64_of_Z z) (IZR z).
Proof.
  intros H. unfold b64_of_Z. assert (C := binary_normalize_correct 53 1024 _ _ mode_NE z 0 false). unfold F2R in C. cbn [Fnum Fexp] in C. change (bpow radix2 0) with 1 in C. rewrite Rmult_1_r in C.
  change (round radix2 (SpecFloat.fexp 53 1024) (round_mode mode_NE) (IZR z)) with (rnd (IZR z)) in C. rewrite rnd_Z in C by exact H. rewrite Rlt_bool_true in C; [split; apply C|].
  rewrite <- abs_IZR. apply Rle_lt_trans with (IZR (2 ^ 53)); [apply IZR_le, H|]. rewrite pow53. apply bpow_lt. lia.
Qed.
Lemma mult_value (x y : b64) : is_finite x = true -> is_finite y = true -> Rabs (rnd (B2R x * B2R y)) < bpow radix2 1024 -> represents (b64_mult x y) (rnd (B2R x * B2R y)).
Proof.
  intros FX FY H. assert (C := Bmult_correct 53 1024 _ _ mode_NE x y). change (round radix2 (SpecFloat.fexp 53 1024) (round_mode mode_NE) (B2R x * B2R y)) with (rnd (B2R x * B2R y)) in C.
  rewrite Rlt_bool_true in C by exact H. destruct C as (C1 & C2 & _). split; [unfold b64_mult; rewrite C2, FX, FY; reflexivity|exact C1].
Qed.
Lemma plus_value (x y : b64) : is_finite x = true -> is_finite y = true -> Rabs (rnd (B2R x + B2R y)) < bpow radix2 1024 -> represents (b64_plus x y) (rnd (B2R x + B2R y)).
Proof.
  intros FX FY H. assert (C := Bplus_correct 53 1024 _ _ mode_NE x y FX FY). change (round radix2 (SpecFloat.fexp 53 1024) (round_mode mode_NE) (B2R x + B2R y)) with (rnd (B2R x + B2R y)) in C.
  rewrite Rlt_bool_true in C by exact H. destruct C as (C1 & C2 & _). split; [exact C2|exact C1].
Qed.
Lemma trunc_value (x : b64) : Btrunc x = Ztrunc (B2R x).
Proof.
  apply eq_IZR. rewrite (Btrunc_correct 53 1024 _ x). unfold round, F2R, scaled_mantissa, cexp, FIX_exp. cbn [Fnum Fexp bpow Z.opp]. rewrite !Rmult_1_r. reflexivity.
Qed.

(** ** Step counts *)
Lemma huge_trunc r : bpow radix2 1024 <= Rabs r -> (Ztrunc r < - 2 ^ 40 \/ 2 ^ 40 < Ztrunc r)%Z.
Proof.
  assert (B : IZR (2 ^ 40 + 1) <= bpow radix2 1024).
  { apply Rle_trans with (IZR (2 ^ 41)); [apply IZR_le; lia|]. rewrite (pow2 41) by lia. apply bpow_le. lia. }
  intros H. unfold Rabs in H. destruct (Rcase_abs r) as [N|P].
  - left. rewrite Ztrunc_ceil by lra. assert (Zceil r <= - (2 ^ 40 + 1))%Z by (apply Zceil_glb; rewrite opp_IZR; lra). lia.
  - right. rewrite Ztrunc_floor by lra. assert (2 ^ 40 + 1 <= Zfloor r)%Z by (apply Zfloor_lub; lra). lia.
Qed.
Lemma div_trunc x y : is_finite x = true -> B2R y <> 0 ->
  represents (b64_div x y) (rnd (B2R x / B2R y)) /\ Btrunc (b64_div x y) = whole_steps (B2R x) (B2R y) \/
  is_finite (b64_div x y) = false /\ (whole_steps (B2R x) (B2R y) < - 2 ^ 40 \/ 2 ^ 40 < whole_steps (B2R x) (B2R y))%Z.
Proof.
  intros F NZ. destruct (div_finite x y F NZ) as [D1 D2]. destruct (Rlt_le_dec (Rabs (rnd (B2R x / B2R y))) (bpow radix2 1024)) as [L|G].
  - left. destruct (D1 L) as [A B]. split; [split; [exact A|exact B]|]. rewrite trunc_value, B. reflexivity.
  - right. split; [exact (D2 G)|]. apply huge_trunc, G.
Qed.
Lemma uint_iff x y N : is_finite x = true -> B2R y <> 0 -> to_uint (b64_div x y) = Ok N <-> N = whole_steps (B2R x) (B2R y) /\ (0 <= N < 2 ^ 32)%Z.
Proof.
  intros F NZ. unfold to_uint. destruct (div_trunc x y F NZ) as [[[A B] C]|[A C]]; rewrite A.
  - rewrite C. destruct (Z.leb_spec 0 (whole_steps (B2R x) (B2R y))), (Z.ltb_spec (whole_steps (B2R x) (B2R y)) (2 ^ 32)); cbn [andb]; (split; [intros E; first [discriminate|injection E as <-; split; [reflexivity|lia]]|intros [-> L]; first [reflexivity|lia]]).
  - split; [discriminate|]. intros [-> L]. lia.
Qed.
Lemma int_iff x y N : is_finite x = true -> B2R y <> 0 -> to_int_uint (b64_div x y) = Ok N <-> (- 2 ^ 31 <= whole_steps (B2R x) (B2R y) < 2 ^ 31)%Z /\ N = (whole_steps (B2R x) (B2R y) mod 2 ^ 32)%Z.
Proof.
  intros F NZ. unfold to_int_uint. destruct (div_trunc x y F NZ) as [[[A B] C]|[A C]]; rewrite A.
  - rewrite C. destruct (Z.leb_spec (- 2 ^ 31) (whole_steps (B2R x) (B2R y))), (Z.ltb_spec (whole_steps (B2R x) (B2R y)) (2 ^ 31)); cbn [andb]; (split; [intros E; first [discriminate|assert (E' : N = (whole_steps (B2R x) (B2R y) mod 2 ^ 32)%Z) by congruence; split; [lia|exact E']]|intros [L ->]; first [reflexivity|lia]]).
  - split; [discriminate|]. intros [L _]. lia.
Qed.
Lemma cast_inputs x y N : to_uint (b64_div x y) = Ok N \/ to_int_uint (b64_div x y) = Ok N -> is_finite x = true /\ (B2R y <> 0 \/ exists s, y = B754_infinity s).
Proof.
  intros H. apply div_inputs. unfold to_uint, to_int_uint in H. destruct (is_finite (b64_div x y)); [reflexivity|]. destruct H; discriminate.
Qed.
(** *** Bounds *)
Lemma floor_bounds q : 0 <= q < bpow radix2 52 -> (Zfloor q <= Ztrunc (rnd q) <= Zfloor q + 1)%Z /\ (Ztrunc (rnd q) = Zfloor q + 1 -> rnd q = IZR (Zfloor q + 1))%Z.
Proof.
  intros [P L]. assert (F0 : (0 <= Zfloor q)%Z) by (apply Zfloor_lub; exact P). assert (FL : IZR (Zfloor q) <= q < IZR (Zfloor q) + 1) by (split; [apply Zfloor_lb|apply Zfloor_ub]).
  assert (FU : (Zfloor q < 2 ^ 52)%Z) by (apply lt_IZR; rewrite (pow2 52) by lia; lra).
  assert (R1 : IZR (Zfloor q) <= rnd q) by (rewrite <- (rnd_Z (Zfloor q)) by lia; apply rnd_le, FL).
  assert (R2 : rnd q <= IZR (Zfloor q + 1)) by (rewrite <- (rnd_Z (Zfloor q + 1)) by lia; apply rnd_le; rewrite plus_IZR; lra).
  assert (R0 : 0 <= rnd q) by (rewrite <- rnd_0; apply rnd_le, P).
  rewrite Ztrunc_floor by exact R0. split; [split|].
  - apply Zfloor_lub. exact R1.
  - apply le_IZR. apply Rle_trans with (rnd q); [apply Zfloor_lb|exact R2].
  - intros E. apply Rle_antisym; [exact R2|]. rewrite <- E. apply Zfloor_lb.
Qed.
Lemma whole_exact n T dt : dt <> 0 -> T = IZR n * dt -> (Z.abs n <= 2 ^ 53)%Z -> whole_steps T dt = n.
Proof. intros NZ -> H. unfold whole_steps. replace (IZR n * dt / dt) with (IZR n) by (field; exact NZ). rewrite rnd_Z by exact H. apply Ztrunc_IZR. Qed.
(** Relative rounding error in the normal range. *)
Definition u53 : R := bpow radix2 (-53).
Lemma u53_eq : u53 = / IZR (2 ^ 53).
Proof. unfold u53. rewrite pow53. apply (bpow_opp radix2 53). Qed.
Lemma rel_error x : bpow radix2 (-1022) <= Rabs x -> exists e, Rabs e <= u53 /\ rnd x = x * (1 + e).
Proof.
  intros H. destruct (relative_error_N_FLT_ex radix2 (-1074) 53 ltac:(reflexivity) (fun x => negb (Z.even x)) x H) as (e & E1 & E2). exists e. split; [|exact E2].
  apply (Rle_trans _ _ _ E1). unfold u53. replace (/ 2) with (bpow radix2 (-1)) by reflexivity. rewrite <- bpow_plus. apply bpow_le. lia.
Qed.
Lemma rnd_pos x : 0 < x -> bpow radix2 (-1074) <= x -> 0 < rnd x.
Proof.
  intros P L. apply Rlt_le_trans with (bpow radix2 (-1074)); [apply bpow_gt_0|]. rewrite <- (rnd_id (bpow radix2 (-1074))); [apply rnd_le, L|].
  replace (bpow radix2 (-1074)) with (IZR 1 * bpow radix2 (-1074)) by ring. apply format_scaled; lia.
Qed.
(** Literals of n steps of length d, both rounded: one step may be lost. *)
Lemma literal_steps n d : bpow radix2 (-1022) <= d -> (0 < n < 2 ^ 50)%Z -> whole_steps (rnd (IZR n * d)) (rnd d) = n \/ whole_steps (rnd (IZR n * d)) (rnd d) = (n - 1)%Z.
Proof.
  intros D N. assert (D0 : 0 < d) by (apply Rlt_le_trans with (2 := D), bpow_gt_0). assert (N1 : 1 <= IZR n) by (apply (IZR_le 1); lia).
  assert (ND : d <= IZR n * d) by nra.
  destruct (rel_error d) as (e2 & E2 & R2); [rewrite Rabs_pos_eq by lra; exact D|].
  destruct (rel_error (IZR n * d)) as (e1 & E1 & R1); [rewrite Rabs_pos_eq by lra; lra|].
  assert (U : u53 = / 9007199254740992) by (rewrite u53_eq; reflexivity). apply Rabs_le_inv in E1, E2. rewrite U in E1, E2.
  assert (NB : IZR n <= 1125899906842624) by (apply IZR_le; lia).
  assert (Q : rnd (IZR n * d) / rnd d = IZR n * ((1 + e1) / (1 + e2))) by (rewrite R1, R2; field; split; lra).
  assert (QL : IZR n - 1 / 2 <= rnd (IZR n * d) / rnd d <= IZR n + 1 / 2).
  { rewrite Q. assert (I : 0 < / (1 + e2)) by (apply Rinv_0_lt_compat; lra). assert (IE : (1 + e2) * / (1 + e2) = 1) by (field; lra). unfold Rdiv. set (i := / (1 + e2)) in *.
    assert (I2 : i <= 2) by nra. assert (ID : (1 + e1) * i = 1 + (e1 - e2) * i) by nra. rewrite ID.
    assert (BD : - (4 / 9007199254740992) <= (e1 - e2) * i <= 4 / 9007199254740992) by (split; nra). split; nra. }
  assert (HF : forall z, (Z.abs z < 2 ^ 51)%Z -> format (IZR z + 1 / 2)).
  { intros z Z1. replace (IZR z + 1 / 2) with (IZR (2 * z + 1) * bpow radix2 (-1)); [apply format_scaled; lia|]. rewrite plus_IZR, mult_IZR. cbn. lra. }
  assert (RL : IZR n - 1 / 2 <= rnd (rnd (IZR n * d) / rnd d) <= IZR n + 1 / 2).
  { split.
    - replace (IZR n - 1 / 2) with (IZR (n - 1) + 1 / 2) by (rewrite minus_IZR; lra). rewrite <- (rnd_id (IZR (n - 1) + 1 / 2)) by (apply HF; lia). apply rnd_le. rewrite minus_IZR. lra.
    - rewrite <- (rnd_id (IZR n + 1 / 2)) by (apply HF; lia). apply rnd_le. lra. }
  unfold whole_steps. rewrite Ztrunc_floor by lra.
  assert (A : (n - 1 <= Zfloor (rnd (rnd (IZR n * d) / rnd d)))%Z) by (apply Zfloor_lub; rewrite minus_IZR; lra).
  assert (B : (Zfloor (rnd (rnd (IZR n * d) / rnd d)) < n + 1)%Z). { apply lt_IZR. rewrite plus_IZR. apply Rle_lt_trans with (rnd (rnd (IZR n * d) / rnd d)); [apply Zfloor_lb|lra]. }
  lia.
Qed.
