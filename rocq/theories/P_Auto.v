(** Proofs about the autocorrelation. *)
From Verif Require Export P_NoiseModel P_Spectrum.
From Verif Require Import P_NoiseBuf P_Vsd P_Compute P_Pimm P_DW P_Resist.
Open Scope R_scope.
Open Scope st_scope.

Lemma whole_turns x z : cos (x + 2 * PI * IZR z) = cos x.
Proof.
  replace (2 * PI * IZR z) with (2 * (IZR z * PI)) by ring. rewrite cos_plus, cos_2a_sin, sin_2a, sin_IZR_PI. ring.
Qed.
Lemma kernel_Z n m : (0 < n)%nat -> Rsum (fun k => cos (2 * PI * INR k * IZR m / INR n)) n = if Z.eqb (m mod Z.of_nat n) 0 then INR n else 0.
Proof.
  intros P. assert (NZ : INR n <> 0) by (apply not_0_INR; lia). set (q := (m / Z.of_nat n)%Z). set (r := (m mod Z.of_nat n)%Z).
  assert (E : m = (Z.of_nat n * q + r)%Z) by (apply Z.div_mod; lia). assert (B : (0 <= r < Z.of_nat n)%Z) by (apply Z.mod_pos_bound; lia).
  assert (C : forall k, cos (2 * PI * INR k * IZR m / INR n) = cos (2 * PI * IZR r * INR k / INR n)).
  { intros k. rewrite <- (whole_turns (2 * PI * IZR r * INR k / INR n) (Z.of_nat k * q)). f_equal. rewrite E, plus_IZR, !mult_IZR, <- !INR_IZR_INZ. field. exact NZ. }
  rewrite (Rsum_ext _ _ n (fun k _ => C k)). destruct (Z.eqb_spec r 0) as [R0|R0].
  - rewrite R0. rewrite (Rsum_ext _ (fun _ => cos 0)); [rewrite wave_const, cos_0; ring|]. intros k _. f_equal. unfold Rdiv. ring.
  - assert (W := wave_sum n (Z.to_nat r) 0 ltac:(lia)). rewrite <- W. apply Rsum_ext. intros k _. rewrite Rplus_0_r. rewrite (INR_IZR_INZ (Z.to_nat r)), Z2Nat.id by lia. reflexivity.
Qed.
(** The only index at a given circular distance. *)
Lemma pick n t j s : (0 < n)%nat -> (t < n)%nat -> (s < n)%nat -> ((Z.of_nat s - Z.of_nat t - Z.of_nat j) mod Z.of_nat n = 0)%Z <-> s = ((t + j) mod n)%nat.
Proof.
  intros P T S. assert (B : ((t + j) mod n < n)%nat) by (apply Nat.mod_upper_bound; lia). assert (E : (t + j = n * ((t + j) / n) + (t + j) mod n)%nat) by (apply Nat.div_mod; lia).
  split.
  - intros H. apply Z.mod_divide in H; [|lia]. destruct H as [z H]. set (q := ((t + j) / n)%nat) in *. set (r := ((t + j) mod n)%nat) in *. 
    assert (H2 : (Z.of_nat s - Z.of_nat r = (z + Z.of_nat q) * Z.of_nat n)%Z) by lia.
    assert (z + Z.of_nat q = 0)%Z by nia. lia.
  - intros ->. apply Z.mod_divide; [lia|]. exists (- Z.of_nat ((t + j) / n))%Z. lia.
Qed.
(** The inverse transform of the power spectrum is the circular correlation. *)
Definition dev_corr (xs : list R) (j : nat) : R := Rsum (fun t => nth t xs 0 * nth ((t + j) mod length xs) xs 0) (length xs).
Lemma power_double xs k : dft_re xs k * dft_re xs k + dft_im xs k * dft_im xs k =
  Rsum (fun s => Rsum (fun t => nth s xs 0 * nth t xs 0 * cos (2 * PI * INR k * IZR (Z.of_nat s - Z.of_nat t) / INR (length xs))) (length xs)) (length xs).
Proof.
  unfold dft_re, dft_im. set (n := length xs). rewrite Rmult_opp_opp, !Rsum_mult, <- Rsum_plus. apply Rsum_ext. intros s S. rewrite <- Rsum_plus. apply Rsum_ext. intros t T.
  replace (2 * PI * INR k * IZR (Z.of_nat s - Z.of_nat t) / INR n) with (2 * PI * INR k * INR s / INR n - 2 * PI * INR k * INR t / INR n).
  - rewrite cos_minus. ring.
  - rewrite minus_IZR, <- !INR_IZR_INZ. unfold Rdiv. ring.
Qed.
Lemma two_kernels n m j : (0 < n)%nat -> Rsum (fun k => cos (2 * PI * INR k * IZR m / INR n) * cos (2 * PI * INR k * INR j / INR n)) n =
  ((if Z.eqb ((m - Z.of_nat j) mod Z.of_nat n) 0 then INR n else 0) + (if Z.eqb ((m + Z.of_nat j) mod Z.of_nat n) 0 then INR n else 0)) / 2.
Proof.
  intros P. rewrite <- !kernel_Z by exact P. rewrite <- Rsum_plus. match goal with |- _ = ?a / 2 => replace (a / 2) with (/ 2 * a) by field end. rewrite <- Rsum_scal. apply Rsum_ext. intros k _.
  replace (2 * PI * INR k * IZR (m - Z.of_nat j) / INR n) with (2 * PI * INR k * IZR m / INR n - 2 * PI * INR k * INR j / INR n) by (rewrite minus_IZR, <- INR_IZR_INZ; unfold Rdiv; ring).
  replace (2 * PI * INR k * IZR (m + Z.of_nat j) / INR n) with (2 * PI * INR k * IZR m / INR n + 2 * PI * INR k * INR j / INR n) by (rewrite plus_IZR, <- INR_IZR_INZ; unfold Rdiv; ring).
  rewrite cos_minus, cos_plus. lra.
Qed.
Lemma wiener xs j : (0 < length xs)%nat ->
  Rsum (fun k => (dft_re xs k * dft_re xs k + dft_im xs k * dft_im xs k) * cos (2 * PI * INR j * INR k / INR (length xs))) (length xs) = INR (length xs) * dev_corr xs j.
Proof.
  intros P. set (n := length xs) in *.
  transitivity (Rsum (fun s => Rsum (fun t => nth s xs 0 * nth t xs 0 * Rsum (fun k => cos (2 * PI * INR k * IZR (Z.of_nat s - Z.of_nat t) / INR n) * cos (2 * PI * INR k * INR j / INR n)) n) n) n).
  - rewrite (Rsum_ext _ (fun k => Rsum (fun s => Rsum (fun t => nth s xs 0 * nth t xs 0 * (cos (2 * PI * INR k * IZR (Z.of_nat s - Z.of_nat t) / INR n) * cos (2 * PI * INR k * INR j / INR n))) n) n)).
    + rewrite Rsum_swap. apply Rsum_ext. intros s _. rewrite Rsum_swap. apply Rsum_ext. intros t _. apply Rsum_scal.
    + intros k _. rewrite power_double. fold n. rewrite Rmult_comm, <- Rsum_scal. apply Rsum_ext. intros s _. rewrite <- Rsum_scal. apply Rsum_ext. intros t _.
      replace (2 * PI * INR j * INR k / INR n) with (2 * PI * INR k * INR j / INR n) by (unfold Rdiv; ring). ring.
  - set (F1 := Rsum (fun s => Rsum (fun t => nth s xs 0 * nth t xs 0 * (if Z.eqb ((Z.of_nat s - Z.of_nat t - Z.of_nat j) mod Z.of_nat n) 0 then INR n else 0)) n) n).
    set (F2 := Rsum (fun s => Rsum (fun t => nth s xs 0 * nth t xs 0 * (if Z.eqb ((Z.of_nat s - Z.of_nat t + Z.of_nat j) mod Z.of_nat n) 0 then INR n else 0)) n) n).
    transitivity ((F1 + F2) / 2).
    + unfold F1, F2. rewrite <- Rsum_plus. match goal with |- _ = ?a / 2 => replace (a / 2) with (/ 2 * a) by field end. rewrite <- Rsum_scal. apply Rsum_ext. intros s _. rewrite <- Rsum_plus, <- Rsum_scal. apply Rsum_ext. intros t _.
      rewrite two_kernels by exact P. field.
    + assert (E1 : F1 = INR n * dev_corr xs j).
      { unfold F1. rewrite Rsum_swap. unfold dev_corr. fold n. rewrite <- Rsum_scal. apply Rsum_ext. intros t T. assert (B : ((t + j) mod n < n)%nat) by (apply Nat.mod_upper_bound; lia).
        rewrite (Rsum_single _ n ((t + j) mod n)%nat); [|exact B|].
        - rewrite (proj2 (Z.eqb_eq _ _)) by (apply pick; [exact P|exact T|exact B|reflexivity]). ring.
        - intros s S NE. destruct (Z.eqb_spec ((Z.of_nat s - Z.of_nat t - Z.of_nat j) mod Z.of_nat n) 0) as [X|X]; [|ring]. apply pick in X; [contradiction|exact P|exact T|exact S]. }
      assert (E2 : F2 = INR n * dev_corr xs j).
      { unfold F2. unfold dev_corr. fold n. rewrite <- Rsum_scal. apply Rsum_ext. intros t T. assert (B : ((t + j) mod n < n)%nat) by (apply Nat.mod_upper_bound; lia).
        assert (FL : forall s, ((Z.of_nat t - Z.of_nat s + Z.of_nat j) mod Z.of_nat n = 0)%Z <-> ((Z.of_nat s - Z.of_nat t - Z.of_nat j) mod Z.of_nat n = 0)%Z).
        { intros s. rewrite !Z.mod_divide by lia. replace (Z.of_nat t - Z.of_nat s + Z.of_nat j)%Z with (- (Z.of_nat s - Z.of_nat t - Z.of_nat j))%Z by lia. apply Z.divide_opp_r. }
        rewrite (Rsum_single _ n ((t + j) mod n)%nat); [|exact B|].
        - rewrite (proj2 (Z.eqb_eq _ _)) by (apply FL, pick; [exact P|exact T|exact B|reflexivity]). ring.
        - intros s S NE. destruct (Z.eqb_spec ((Z.of_nat t - Z.of_nat s + Z.of_nat j) mod Z.of_nat n) 0) as [X|X]; [|ring]. apply FL, pick in X; [contradiction|exact P|exact T|exact S]. }
      rewrite E1, E2. field.
Qed.

(** ** The function *)
Lemma mean_iff x m : np_mean x = Ok m <-> x <> [] /\ m = average x.
Proof.
  unfold np_mean, average. rewrite P_DW.fdiv_iff'. rewrite sum_list_Sigma. unfold Sigma. split; intros [A1 A2]; (split; [|exact A2]).
  - intros ->. apply A1. reflexivity.
  - destruct x; [contradiction|]. apply not_0_INR. discriminate.
Qed.
Lemma nth_dev x t : (t < length x)%nat -> nth t (map (fun v => v - average x) x) 0 = deviation x t.
Proof. intros H. rewrite (nth_indep _ 0 ((fun v => v - average x) 0)) by (rewrite map_length; exact H). rewrite (map_nth (fun v => v - average x)). reflexivity. Qed.
Lemma dev_circular x j : (0 < length x)%nat -> dev_corr (map (fun v => v - average x) x) j = circular x j.
Proof.
  intros P. unfold dev_corr, circular. rewrite map_length. apply Rsum_ext. intros t T. rewrite !nth_dev; [reflexivity| |exact T]. apply Nat.mod_upper_bound. lia.
Qed.
Lemma circular_energy x : circular x 0 = Rsum (fun t => deviation x t ^ 2) (length x).
Proof. unfold circular. apply Rsum_ext. intros t T. rewrite Nat.add_0_r, Nat.mod_small by exact T. ring. Qed.
Lemma energy_eq x : sum_list (map (fun v => v ^ 2) (map (fun v => v - average x) x)) = circular x 0.
Proof.
  rewrite circular_energy, sum_list_Sigma. apply Sigma_nth; [rewrite !map_length; reflexivity|]. intros k K. rewrite map_map.
  rewrite (nth_indep _ 0 ((fun v => (v - average x) ^ 2) 0)) by (rewrite map_length; exact K). rewrite (map_nth (fun v => (v - average x) ^ 2)). reflexivity.
Qed.
Lemma power_eq xs k : (k < length xs)%nat -> nth k (map (fun z : R * R => sqrt (fst z * fst z + snd z * snd z) ^ 2) (transform false (map (fun v => (v, 0)) xs))) 0 = dft_re xs k * dft_re xs k + dft_im xs k * dft_im xs k.
Proof.
  intros K. rewrite (nth_indep _ 0 ((fun z : R * R => sqrt (fst z * fst z + snd z * snd z) ^ 2) (0, 0))) by (rewrite map_length, P_NoiseBuf.transform_length, map_length; exact K).
  rewrite (map_nth (fun z : R * R => sqrt (fst z * fst z + snd z * snd z) ^ 2)). assert (T := transform_dft xs k K). apply nth_error_nth with (d := (0, 0)) in T.
  match goal with |- context [fst ?z] => replace z with (dft_re xs k, dft_im xs k) by (symmetry; exact T) end. cbn [fst snd]. rewrite pow2_sqrt; [reflexivity|nra].
Qed.
Lemma inverse_eq xs j : (j < length xs)%nat -> 
  fst (nth j (np_ifft (map (fun v => (v, 0)) (map (fun z : R * R => sqrt (fst z * fst z + snd z * snd z) ^ 2) (transform false (map (fun v => (v, 0)) xs))))) (0, 0)) = dev_corr xs j.
Proof.
  intros J. set (p := map (fun z : R * R => sqrt (fst z * fst z + snd z * snd z) ^ 2) (transform false (map (fun v => (v, 0)) xs))).
  assert (LP : length p = length xs) by (unfold p; rewrite map_length, P_NoiseBuf.transform_length, map_length; reflexivity).
  assert (NZ : INR (length xs) <> 0) by (apply not_0_INR; lia).
  unfold np_ifft. set (c := map (fun v => (v, 0)) p). assert (LC : length c = length xs) by (unfold c; rewrite map_length; exact LP). rewrite LC.
  assert (LT : @length (R * R) (transform true c) = length xs) by (etransitivity; [apply P_NoiseBuf.transform_length|exact LC]).
  rewrite (nth_indep _ (0, 0) ((fun z : R * R => (fst z / INR (length xs), snd z / INR (length xs))) (0, 0))) by (rewrite map_length, LT; exact J).
  rewrite (map_nth (fun z : R * R => (fst z / INR (length xs), snd z / INR (length xs)))). cbn [fst]. rewrite transform_nth by (apply (Nat.lt_le_trans _ _ _ J), Nat.eq_le_incl; symmetry; exact LC). cbn [fst]. change (@length cplx c) with (@length (R * R) c). rewrite LC.
  rewrite (Rsum_ext _ (fun k => (dft_re xs k * dft_re xs k + dft_im xs k * dft_im xs k) * cos (2 * PI * INR j * INR k / INR (length xs)))).
  - rewrite wiener by lia. field. exact NZ.
  - intros k K. unfold c. rewrite (nth_indep _ (0, 0) ((fun v => (v, 0)) 0)) by (rewrite map_length, LP; exact K). rewrite (map_nth (fun v => (v, 0))). unfold p. rewrite power_eq by exact K. unfold cmul, twiddle. cbn [fst snd]. ring.
Qed.
Lemma auto_iff x dT lag ac : autocorrelation x dT = Ok (lag, ac) <->
  x <> [] /\ (length x = 1%nat \/ circular x 0 <> 0) /\ length lag = (length x / 2)%nat /\ length ac = (length x / 2)%nat /\
  forall k, (k < length x / 2)%nat -> nth k lag 0 = INR k * dT /\ nth k ac 0 * circular x 0 = circular x k.
Proof.
  assert (HALF : (length x / 2 <= length x)%nat) by (apply Nat.div_le_upper_bound; lia).
  assert (G : x <> [] -> autocorrelation x dT = (ac <-- mapM (fun z => fdiv (fst z) (circular x 0))
     (firstn (length x / 2) (np_ifft (map (fun v => (v, 0)) (map (fun z : R * R => sqrt (fst z * fst z + snd z * snd z) ^ 2) (transform false (map (fun v => (v, 0)) (map (fun v => v - average x) x)))))));;
     Ok (map (fun k => INR k * dT) (seq 0 (length ac)), ac))).
  { intros N. unfold autocorrelation. rewrite (proj2 (mean_iff x (average x)) (conj N eq_refl)). cbn [rbind]. rewrite energy_eq. reflexivity. }
  set (zs := firstn (length x / 2) (np_ifft (map (fun v => (v, 0)) (map (fun z : R * R => sqrt (fst z * fst z + snd z * snd z) ^ 2) (transform false (map (fun v => (v, 0)) (map (fun v => v - average x) x))))))) in *.
  assert (LZ : length zs = (length x / 2)%nat).
  { unfold zs. rewrite firstn_length. unfold np_ifft. rewrite map_length, P_NoiseBuf.transform_length, !map_length, P_NoiseBuf.transform_length, !map_length. lia. }
  assert (VZ : forall k, (k < length x / 2)%nat -> fst (nth k zs (0, 0)) = circular x k).
  { intros k K. unfold zs. rewrite nth_firstn by exact K. rewrite inverse_eq by (rewrite map_length; lia). apply dev_circular. lia. }
  split.
  - intros E. assert (N : x <> []). { intros ->. unfold autocorrelation in E. destruct (np_mean []) eqn:M; [apply mean_iff in M; destruct M; contradiction|discriminate]. }
    rewrite (G N) in E. apply rbind_inv in E. destruct E as (ac' & E1 & E2). injection E2 as <- <-. split; [exact N|].
    apply mapM_iff in E1. assert (L := F2_length _ _ _ E1). rewrite LZ in L.
    assert (FV : forall k, (k < length x / 2)%nat -> fdiv (fst (nth k zs (0, 0))) (circular x 0) = Ok (nth k ac' 0)).
    { rewrite <- LZ. clear - E1. induction E1 as [|z y zs ys H F IH]; intros k K; cbn in *; [lia|]. destruct k; [exact H|]. apply IH. lia. }
    split.
    { destruct x as [|x0 [|x1 xs]]; [contradiction|left; reflexivity|]. right. assert (P : (0 < length (x0 :: x1 :: xs) / 2)%nat) by (apply Nat.div_str_pos; cbn; lia). specialize (FV 0%nat P). apply P_DW.fdiv_iff' in FV. apply FV. }
    split; [rewrite map_length, seq_length; exact (eq_sym L)|]. split; [exact (eq_sym L)|]. intros k K. split; [apply (nth_map_seq' (fun k => INR k * dT)); lia|].
    specialize (FV k K). apply P_DW.fdiv_iff' in FV. destruct FV as [NZ ->]. rewrite VZ by exact K. field. exact NZ.
  - intros (N & EN & LL & LA & V). rewrite (G N). apply rbind_iff. exists ac. split.
    + apply mapM_iff. assert (NZ : forall k, (k < length x / 2)%nat -> circular x 0 <> 0).
      { intros k K. destruct EN as [EN|EN]; [|exact EN]. rewrite EN in K. cbn in K. lia. }
      assert (FV : forall k, (k < length zs)%nat -> fdiv (fst (nth k zs (0, 0))) (circular x 0) = Ok (nth k ac 0)).
      { intros k K. rewrite LZ in K. apply P_DW.fdiv_iff'. split; [apply (NZ k K)|]. rewrite VZ by exact K. destruct (V k K) as [_ W]. rewrite <- W. field. apply (NZ k K). }
      rewrite <- LZ in LA. clear - FV LA. revert ac LA FV. induction zs as [|z zs IH]; intros [|y ys] L F; cbn in L; try lia; constructor; [apply (F 0%nat); cbn; lia|]. apply IH; [lia|]. intros k K. apply (F (S k)). cbn. lia.
    + f_equal. f_equal. rewrite (list_as_map 0 lag), LL, LA. apply map_ext_in. intros k K. apply in_seq in K. symmetry. apply V. lia.
Qed.

(** ** Consequences *)
Lemma rotate f n k : (0 < n)%nat -> Rsum (fun t => f ((t + k) mod n)%nat) n = Rsum f n.
Proof.
  intros P. assert (E : forall t, ((t + k) mod n = (t + k mod n) mod n)%nat) by (intros t; rewrite Nat.add_mod_idemp_r by lia; reflexivity).
  rewrite (Rsum_ext _ (fun t => f ((t + k mod n) mod n)%nat)) by (intros t _; rewrite E; reflexivity). assert (B : (k mod n < n)%nat) by (apply Nat.mod_upper_bound; lia). revert B. generalize (k mod n)%nat. clear E k. intros r B.
  assert (S1 : forall g : nat -> R, Rsum g n = Rsum g (n - r) + Rsum (fun t => g (n - r + t)%nat) r) by (intros g; rewrite <- Rsum_split; f_equal; lia).
  assert (S2 : forall g : nat -> R, Rsum g n = Rsum g r + Rsum (fun t => g (r + t)%nat) (n - r)) by (intros g; rewrite <- Rsum_split; f_equal; lia).
  rewrite S1, (S2 f), Rplus_comm. f_equal.
  - apply Rsum_ext. intros t T. f_equal. replace (n - r + t + r)%nat with (t + 1 * n)%nat by lia. rewrite Nat.mod_add by lia. apply Nat.mod_small. lia.
  - apply Rsum_ext. intros t T. f_equal. rewrite Nat.add_comm. apply Nat.mod_small. lia.
Qed.
Lemma circular_bound x k : (0 < length x)%nat -> Rabs (circular x k) <= circular x 0.
Proof.
  intros P. rewrite circular_energy. set (n := length x) in *.
  assert (SQ : Rsum (fun t => deviation x ((t + k) mod n)%nat ^ 2) n = Rsum (fun t => deviation x t ^ 2) n) by (apply (rotate (fun t => deviation x t ^ 2)), P).
  assert (UP : 2 * circular x k <= Rsum (fun t => deviation x t ^ 2) n + Rsum (fun t => deviation x ((t + k) mod n)%nat ^ 2) n).
  { unfold circular. fold n. rewrite <- Rsum_scal, <- Rsum_plus. apply Rsum_le. intros t _. assert (Q := pow2_ge_0 (deviation x t - deviation x ((t + k) mod n)%nat)). nra. }
  assert (LO : - (2 * circular x k) <= Rsum (fun t => deviation x t ^ 2) n + Rsum (fun t => deviation x ((t + k) mod n)%nat ^ 2) n).
  { unfold circular. fold n. rewrite <- Rsum_scal, <- Rsum_plus, <- Rsum_opp. apply Rsum_le. intros t _. assert (Q := pow2_ge_0 (deviation x t + deviation x ((t + k) mod n)%nat)). nra. }
  apply Rabs_le. lra.
Qed.
Lemma energy_zero x : circular x 0 = 0 <-> forall t, (t < length x)%nat -> deviation x t = 0.
Proof.
  rewrite circular_energy. split.
  - generalize (length x). induction n as [|n IH]; intros E t T; [lia|]. cbn [Rsum] in E.
    assert (P : 0 <= Rsum (fun t => deviation x t ^ 2) n). { rewrite <- (Rsum_zero (fun _ => 0) n) by reflexivity. apply Rsum_le. intros s _. apply pow2_ge_0. }
    assert (Q := pow2_ge_0 (deviation x n)). destruct (Nat.eq_dec t n) as [->|NE]; [|apply IH; [lra|lia]].
    assert (Z : deviation x n * deviation x n = 0) by (cbn in *; lra). apply Rmult_integral in Z. tauto.
  - intros H. apply Rsum_zero. intros t T. rewrite H by exact T. ring.
Qed.
Lemma average_const x c : (0 < length x)%nat -> (forall t, (t < length x)%nat -> nth t x 0 = c) -> average x = c.
Proof.
  intros P H. unfold average. rewrite (Rsum_ext _ (fun _ => c)) by exact H.
  assert (K : forall n, Rsum (fun _ => c) n = INR n * c) by (induction n as [|n IH]; [cbn; ring|]; cbn [Rsum]; rewrite IH, S_INR; ring). rewrite K. field. apply not_0_INR. lia.
Qed.
Lemma auto_constant x c dT r : (1 < length x)%nat -> (forall t, (t < length x)%nat -> nth t x 0 = c) -> autocorrelation x dT <> Ok r.
Proof.
  intros P H E. destruct r as [lag ac]. apply auto_iff in E. destruct E as (_ & [L|N] & _); [lia|]. apply N. apply energy_zero. intros t T. unfold deviation. rewrite (average_const x c) by (try lia; exact H). rewrite H by exact T. ring.
Qed.
Lemma auto_zero x dT lag ac : (1 < length x)%nat -> autocorrelation x dT = Ok (lag, ac) -> nth 0 ac 0 = 1.
Proof.
  intros P E. apply auto_iff in E. destruct E as (_ & [L|N] & _ & _ & V); [lia|]. assert (Q : (0 < length x / 2)%nat) by (apply Nat.div_str_pos; lia). destruct (V 0%nat Q) as [_ W].
  apply (Rmult_eq_reg_r (circular x 0)); [lra|exact N].
Qed.
Lemma auto_bound x dT lag ac k : autocorrelation x dT = Ok (lag, ac) -> (k < length x / 2)%nat -> -1 <= nth k ac 0 <= 1.
Proof.
  intros E K. apply auto_iff in E. destruct E as (_ & EN & _ & _ & V). destruct EN as [L|N]; [rewrite L in K; cbn in K; lia|]. destruct (V k K) as [_ W].
  assert (P : (0 < length x)%nat) by (destruct x; [cbn in K; lia|cbn; lia]). assert (B := circular_bound x k P). assert (B0 := circular_bound x 0 P).
  assert (C0 : 0 < circular x 0) by (assert (R0 := Rabs_pos (circular x 0)); lra). 
  assert (B' : - circular x 0 <= circular x k <= circular x 0) by (split; [assert (T := Rle_abs (- circular x k)); rewrite Rabs_Ropp in T; lra|assert (T := Rle_abs (circular x k)); lra]).
  rewrite <- W in B'. split; apply (Rmult_le_reg_r (circular x 0)); lra.
Qed.
Lemma auto_period x dT lag ac q : autocorrelation x dT = Ok (lag, ac) -> (q < length x / 2)%nat ->
  (forall t, (t < length x)%nat -> nth ((t + q) mod length x) x 0 = nth t x 0) -> nth q ac 0 = 1.
Proof.
  intros E K H. apply auto_iff in E. destruct E as (_ & EN & _ & _ & V). destruct EN as [L|N]; [rewrite L in K; cbn in K; lia|]. destruct (V q K) as [_ W].
  apply (Rmult_eq_reg_r (circular x 0)); [|exact N]. rewrite W, Rmult_1_l. unfold circular. apply Rsum_ext. intros t T. rewrite Nat.add_0_r, (Nat.mod_small t) by exact T. unfold deviation. rewrite H by exact T. reflexivity.
Qed.
Lemma affine_average x c d : x <> [] -> average (map (fun v => c * v + d) x) = c * average x + d.
Proof.
  intros N. unfold average. rewrite map_length. rewrite (Rsum_ext _ (fun t => c * nth t x 0 + d)).
  - rewrite Rsum_plus, Rsum_scal. assert (K : forall n, Rsum (fun _ => d) n = INR n * d) by (induction n as [|n IH]; [cbn; ring|]; cbn [Rsum]; rewrite IH, S_INR; ring). rewrite K. field. apply not_0_INR. destruct x; [contradiction|discriminate].
  - intros t T. rewrite (nth_indep _ 0 ((fun v => c * v + d) 0)) by (rewrite map_length; exact T). apply (map_nth (fun v => c * v + d)).
Qed.
Lemma affine_circular x c d k : x <> [] -> circular (map (fun v => c * v + d) x) k = c ^ 2 * circular x k.
Proof.
  intros N. unfold circular. rewrite map_length, <- Rsum_scal. assert (P : (0 < length x)%nat) by (destruct x; [contradiction|cbn; lia]).
  assert (DV : forall t, (t < length x)%nat -> deviation (map (fun v => c * v + d) x) t = c * deviation x t).
  { intros t T. unfold deviation. rewrite affine_average by exact N. rewrite (nth_indep _ 0 ((fun v => c * v + d) 0)) by (rewrite map_length; exact T). rewrite (map_nth (fun v => c * v + d)). ring. }
  apply Rsum_ext. intros t T. rewrite !DV; [ring| |exact T]. apply Nat.mod_upper_bound. lia.
Qed.
Lemma auto_affine x dT c d r : c <> 0 -> autocorrelation x dT = Ok r -> autocorrelation (map (fun v => c * v + d) x) dT = Ok r.
Proof.
  intros C E. destruct r as [lag ac]. apply auto_iff in E. destruct E as (N & EN & LL & LA & V). assert (C2 : 0 < c ^ 2) by (apply pow2_gt_0, C). apply auto_iff. rewrite map_length.
  split; [destruct x; [contradiction|discriminate]|]. split; [destruct EN as [L|L]; [left; exact L|right]; rewrite affine_circular by exact N; apply Rmult_integral_contrapositive; split; [lra|exact L]|].
  split; [exact LL|]. split; [exact LA|]. intros k K. destruct (V k K) as [V1 V2]. split; [exact V1|]. rewrite !affine_circular by exact N. rewrite <- V2. ring.
Qed.
(** A pulse. *)
Lemma pulse_average : average [1; 0; 0; 0] = 1 / 4.
Proof. unfold average. cbn. field. Qed.
Lemma pulse_auto : autocorrelation [1; 0; 0; 0] 1 = Ok ([0; 1], [1; - (1 / 3)]).
Proof.
  apply auto_iff. assert (C : forall k, circular [1; 0; 0; 0] k = Rsum (fun t => deviation [1; 0; 0; 0] t * deviation [1; 0; 0; 0] ((t + k) mod 4)) 4) by reflexivity.
  assert (C0 : circular [1; 0; 0; 0] 0 = 3 / 4) by (rewrite C; cbn; unfold deviation; rewrite pulse_average; cbn; lra).
  assert (C1 : circular [1; 0; 0; 0] 1 = - (1 / 4)) by (rewrite C; cbn; unfold deviation; rewrite pulse_average; cbn; lra).
  split; [discriminate|]. split; [right; lra|]. split; [reflexivity|]. split; [reflexivity|]. intros [|[|k]] K; [| |cbn in K; lia]; rewrite ?C0, ?C1; cbn; split; lra.
Qed.
