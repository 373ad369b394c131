(** Filters, the rectified_mean voltage and the diode procedure. *)
From Verif Require Export P_Noise P_NoiseBuf P_Keys P_PimmProps.
From Coq Require Import List Lra Lia.
Open Scope R_scope.
Open Scope st_scope.

(** ** The recursive filter *)
Lemma conv_sum cs : forall past, conv cs past = Rsum (fun i => coef cs i * nth i past 0) (Nat.min (length past) (length cs)).
Proof.
  induction cs as [|c cs IH]; intros past.
  - destruct past; cbn; rewrite ?Nat.min_0_r; reflexivity.
  - destruct past as [|x past]; [reflexivity|]. cbn [conv length Nat.min]. rewrite IH, Rsum_head. reflexivity.
Qed.
Lemma go_length b a0 ar data : forall xs ys, length (lfilter_go b a0 ar xs ys data) = length data.
Proof. induction data as [|x data IH]; intros xs ys; [reflexivity|]. cbn. rewrite IH. reflexivity. Qed.
Lemma go_nth b a0 ar data : forall pre ypre, length ypre = length pre -> forall n, (n < length data)%nat ->
  nth n (lfilter_go b a0 ar (rev pre) (rev ypre) data) 0 =
  (conv b (rev (firstn (S (length pre + n)) (pre ++ data))) - conv ar (rev (firstn (length pre + n) (ypre ++ lfilter_go b a0 ar (rev pre) (rev ypre) data)))) / a0.
Proof.
  induction data as [|x data IH]; intros pre ypre L n Hn; [cbn in Hn; lia|]. cbn [lfilter_go].
  set (y := (conv b (x :: rev pre) - conv ar (rev ypre)) / a0).
  assert (RX : x :: rev pre = rev (pre ++ [x])) by (rewrite rev_app_distr; reflexivity). assert (RY : y :: rev ypre = rev (ypre ++ [y])) by (rewrite rev_app_distr; reflexivity).
  destruct n as [|n].
  - cbn [nth]. rewrite Nat.add_0_r. replace (S (length pre)) with (length (pre ++ [x])) by (rewrite app_length; cbn; lia).
    replace (pre ++ x :: data)%list with ((pre ++ [x]) ++ data)%list by (rewrite <- app_assoc; reflexivity). rewrite firstn_app, firstn_all, Nat.sub_diag, firstn_O, app_nil_r, <- RX.
    rewrite <- L at 1. rewrite firstn_app, firstn_all, Nat.sub_diag, firstn_O, app_nil_r. reflexivity.
  - cbn [nth]. rewrite RX, RY. rewrite IH by (try (rewrite !app_length; cbn; lia); cbn in Hn; lia).
    rewrite app_length. cbn [length]. replace (length pre + 1 + n)%nat with (length pre + S n)%nat by lia. rewrite <- !app_assoc. reflexivity.
Qed.
Lemma hist_nth (x : list R) n i : (n < length x)%nat -> (i <= n)%nat -> nth i (rev (firstn (S n) x)) 0 = nth (n - i) x 0.
Proof.
  intros Hn Hi. rewrite rev_nth by (rewrite firstn_length; lia). rewrite firstn_length, Nat.min_l by lia. replace (S n - S i)%nat with (n - i)%nat by lia.
  assert (E : nth_error (firstn (S n) x) (n - i) = nth_error x (n - i)) by (apply firstn_at; lia).
  destruct (nth_error x (n - i)) as [v|] eqn:Ev; [rewrite (nth_error_nth _ _ _ E), (nth_error_nth _ _ _ Ev); reflexivity|]. apply nth_error_None in Ev. lia.
Qed.
Lemma conv_hist cs x n : (n < length x)%nat -> conv cs (rev (firstn (S n) x)) = Rsum (fun i => coef cs i * nth (n - i) x 0) (Nat.min (S n) (length cs)).
Proof.
  intros Hn. rewrite conv_sum, rev_length, firstn_length, (Nat.min_l (S n)) by lia. apply Rsum_ext. intros i Hi. rewrite hist_nth by lia. reflexivity.
Qed.
Lemma hist_cons (y : list R) n : (n < length y)%nat -> rev (firstn (S n) y) = nth n y 0 :: rev (firstn n y).
Proof.
  revert y. induction n as [|n IH]; intros [|v y] H; cbn in H; try lia; [reflexivity|]. change (firstn (S (S n)) (v :: y)) with (v :: firstn (S n) y). change (firstn (S n) (v :: y)) with (v :: firstn n y).
  cbn [rev nth]. rewrite IH by lia. reflexivity.
Qed.
Lemma recursive_iff b a0 ar x y : a0 <> 0 -> y = lfilter_go b a0 ar [] [] x <-> filtered b (a0 :: ar) x y.
Proof.
  intros A. unfold filtered. assert (STEP : forall y n, length y = length x -> (n < length x)%nat ->
     (nth n y 0 = (conv b (rev (firstn (S n) x)) - conv ar (rev (firstn n y))) / a0 <->
      Rsum (fun i => coef (a0 :: ar) i * nth (n - i) y 0) (Nat.min (S n) (length (a0 :: ar))) = Rsum (fun i => coef b i * nth (n - i) x 0) (Nat.min (S n) (length b)))).
  { intros z n L Hn. rewrite <- !conv_hist by lia. rewrite (hist_cons z) by lia. cbn [conv]. split.
    - intros ->. field. exact A.
    - intros E. rewrite <- E. field. exact A. }
  split.
  - intros ->. split; [apply go_length|]. intros n Hn. apply STEP; [apply go_length|exact Hn|]. exact (go_nth b a0 ar x [] [] eq_refl n Hn).
  - intros [L F]. set (z := lfilter_go b a0 ar [] [] x). assert (LZ : length z = length x) by apply go_length.
    assert (P : forall n, (n <= length x)%nat -> firstn n y = firstn n z).
    { induction n as [|n IH]; intros Hn; [reflexivity|]. assert (E : rev (firstn (S n) y) = rev (firstn (S n) z)).
      { rewrite !hist_cons by lia. rewrite (proj2 (STEP y n L ltac:(lia)) (F n ltac:(lia))). pose proof (go_nth b a0 ar x [] [] eq_refl n ltac:(lia)) as G. cbn [length rev app Nat.add] in G. fold z in G. rewrite G, (IH ltac:(lia)). reflexivity. }
      rewrite <- (rev_involutive (firstn (S n) y)), E, rev_involutive. reflexivity. }
    rewrite <- (firstn_all y), <- (firstn_all z), L, LZ. apply P. lia.
Qed.
Lemma lfilter_iff b a x y : lfilter b a x = Ok y <-> a <> [] /\ coef a 0 <> 0 /\ filtered b a x y.
Proof.
  unfold lfilter. destruct a as [|a0 ar]; [split; [discriminate|intros [H _]; congruence]|]. unfold coef. cbn [nth]. destruct (Req_EM_T a0 0) as [Z|Z].
  - split; [discriminate|]. intros (_ & H & _). contradiction.
  - split.
    + intros E. injection E as <-. split; [discriminate|]. split; [exact Z|]. apply recursive_iff; [exact Z|reflexivity].
    + intros (_ & _ & F). apply recursive_iff in F; [|exact Z]. rewrite F. reflexivity.
Qed.
Lemma butter_iff design order wn c : butter design order wn = Ok c <-> Forall valid_edge wn /\ c = design order wn.
Proof.
  unfold butter. destruct (forallb _ wn) eqn:E.
  - split; [intros X; injection X as <-; split; [|reflexivity]|intros [_ ->]; reflexivity]. rewrite forallb_forall in E. apply Forall_forall. intros w Hw. specialize (E w Hw).
    unfold valid_edge. destruct (Rlt_dec 0 w); [|discriminate]. destruct (Rlt_dec w 1); [lra|discriminate].
  - split; [discriminate|]. intros [F _]. exfalso. rewrite Forall_forall in F. assert (X : forallb (fun w => if Rlt_dec 0 w then if Rlt_dec w 1 then true else false else false) wn = true).
    { apply forallb_forall. intros w Hw. specialize (F w Hw). unfold valid_edge in F. destruct (Rlt_dec 0 w); [|lra]. destruct (Rlt_dec w 1); [reflexivity|lra]. }
    congruence.
Qed.
Lemma py_div_iff a b r : py_div a b = Ok r <-> b <> 0 /\ r = a / b.
Proof. unfold py_div. destruct (Req_EM_T b 0); split; try discriminate; try (intros [X _]; contradiction); [intros X; injection X as <-; split; [assumption|reflexivity]|intros [_ ->]; reflexivity]. Qed.
(** The low pass. *)
Lemma lowpass_iff design data cutoff fs order y : butter_lowpass_filter design data cutoff fs order = Ok y <->
  fs <> 0 /\ valid_edge (2 * cutoff / fs) /\ exists b a, design order [2 * cutoff / fs] = (b, a) /\ a <> [] /\ coef a 0 <> 0 /\ filtered b a data y.
Proof.
  unfold butter_lowpass_filter. cbv zeta. rewrite rbind_iff. setoid_rewrite rbind_iff. setoid_rewrite py_div_iff. setoid_rewrite butter_iff. setoid_rewrite lfilter_iff. split.
  - intros (w & [NZ ->] & [b a] & [F ->] & X). assert (FS : fs <> 0) by lra. replace (cutoff / (1 / 2 * fs)) with (2 * cutoff / fs) in * by (field; exact FS).
    split; [exact FS|]. split; [exact (Forall_inv F)|]. destruct (design order [2 * cutoff / fs]) as [b' a'] eqn:E. exists b', a'. split; [reflexivity|exact X].
  - intros (FS & V & b & a & E & X). exists (cutoff / (1 / 2 * fs)). split; [split; [lra|reflexivity]|]. replace (cutoff / (1 / 2 * fs)) with (2 * cutoff / fs) by (field; exact FS).
    exists (b, a). split; [split; [constructor; [exact V|constructor]|symmetry; exact E]|exact X].
Qed.
(** The band pass: the float 0 stands for the band 0.09 ... 0.1 Hz, every other float (and int) leaves the filter
    undefined, a tuple is taken as fractions of the Nyquist frequency. *)
Lemma bandpass_iff design data p fs order y : butter_bandpass_filter design data p fs order = Ok y <->
  exists lo hi, ((p = PassFloat 0 /\ fs <> 0 /\ lo = 18 / 100 / fs /\ hi = 2 / 10 / fs) \/ (exists rest, p = PassTuple (lo :: hi :: rest))) /\
    valid_edge lo /\ valid_edge hi /\ exists b a, design order [lo; hi] = (b, a) /\ a <> [] /\ coef a 0 <> 0 /\ filtered b a data y.
Proof.
  assert (FIN : forall lo hi, (exists c, (Forall valid_edge [lo; hi] /\ c = design order [lo; hi]) /\ snd c <> [] /\ coef (snd c) 0 <> 0 /\ filtered (fst c) (snd c) data y) <->
     valid_edge lo /\ valid_edge hi /\ exists b a, design order [lo; hi] = (b, a) /\ a <> [] /\ coef a 0 <> 0 /\ filtered b a data y).
  { intros lo hi. split.
    - intros ([b a] & [F E] & X). split; [exact (Forall_inv F)|]. split; [exact (Forall_inv (Forall_inv_tail F))|]. exists b, a. split; [symmetry; exact E|exact X].
    - intros (V & W & b & a & E & X). exists (b, a). split; [split; [apply Forall_cons; [exact V|apply Forall_cons; [exact W|apply Forall_nil]]|symmetry; exact E]|exact X]. }
  unfold butter_bandpass_filter. cbv zeta. rewrite rbind_iff. setoid_rewrite lfilter_iff. destruct p as [f|fs'|].
  - destruct (Req_EM_T f 0) as [->|NZ].
    + setoid_rewrite rbind_iff. setoid_rewrite rbind_iff. setoid_rewrite py_div_iff. setoid_rewrite butter_iff. split.
      * intros (c & (lo & [NZ ->] & hi & [_ ->] & B) & X). assert (FS : fs <> 0) by lra.
        exists (9 / 10 * (1 / 10) / (1 / 2 * fs)), (1 / 10 / (1 / 2 * fs)). split; [left; repeat split; [exact FS|field; exact FS|field; exact FS]|]. apply FIN. exists c. split; assumption.
      * intros (lo & hi & [(_ & FS & -> & ->)|(r & E)] & X); [|discriminate]. apply FIN in X. destruct X as (c & B & X). exists c. split; [|exact X].
        exists (9 / 10 * (1 / 10) / (1 / 2 * fs)). split; [split; [lra|reflexivity]|]. exists (1 / 10 / (1 / 2 * fs)). split; [split; [lra|reflexivity]|].
        replace (9 / 10 * (1 / 10) / (1 / 2 * fs)) with (18 / 100 / fs) by (field; exact FS). replace (1 / 10 / (1 / 2 * fs)) with (2 / 10 / fs) by (field; exact FS). exact B.
    + split; [intros (c & X & _); discriminate|]. intros (lo & hi & [(E & _)|(r & E)] & _); [|discriminate]. injection E as E. contradiction.
  - setoid_rewrite rbind_iff. setoid_rewrite rbind_iff. setoid_rewrite butter_iff. setoid_rewrite at_iff. split.
    + intros (c & (lo & L & hi & Hh & B) & X). exists lo, hi. destruct fs' as [|u [|v r]]; try discriminate. cbn in L, Hh. injection L as ->. injection Hh as ->. split; [right; exists r; reflexivity|]. apply FIN. exists c. split; assumption.
    + intros (lo & hi & [(E & _)|(r & E)] & X); [discriminate|]. injection E as ->. apply FIN in X. destruct X as (c & B & X). exists c. split; [|exact X]. exists lo. split; [reflexivity|]. exists hi. split; [reflexivity|exact B].
  - split; [intros (c & X & _); discriminate|]. intros (lo & hi & [(E & _)|(r & E)] & _); discriminate.
Qed.

(** ** The rectified_mean voltage *)
Lemma sum_list_Sigma xs : sum_list xs = Sigma xs.
Proof. unfold sum_list. induction xs as [|x xs IH]; [reflexivity|]. cbn [fold_right]. rewrite IH, P_Compute.Sigma_cons. reflexivity. Qed.
Lemma elementwise_products r : forall i, length i = length r -> elementwise Rmult (map Ropp i) r = Ok (map (fun p => - snd p * fst p) (combine r i)).
Proof.
  intros i L. assert (X : map (fun p => fst p * snd p) (combine (map Ropp i) r) = map (fun p => - snd p * fst p) (combine r i)).
  { revert i L. induction r as [|x r IH]; intros [|y i] L; try discriminate; [reflexivity|]. cbn. f_equal. apply IH. injection L as L. exact L. }
  destruct r as [|x [|x2 r]], i as [|y [|y2 i]]; try discriminate; try reflexivity.
  unfold elementwise. cbn [map]. change (- y :: - y2 :: map Ropp i) with (map Ropp (y :: y2 :: i)). rewrite map_length, L, Nat.eqb_refl. f_equal. exact X.
Qed.
Lemma sd_iff design r i dt v : length i = length r -> compute_sd design r i dt = Ok v <-> rectified_mean design r i dt v.
Proof.
  intros L. unfold compute_sd. rewrite elementwise_products by exact L. cbn [rbind]. rewrite rbind_iff. setoid_rewrite py_div_iff. setoid_rewrite rbind_iff. setoid_rewrite lowpass_iff. unfold np_mean. setoid_rewrite sum_list_Sigma.
  set (x := map (fun p => - snd p * fst p) (combine r i)). assert (LX : length x = length r) by (unfold x; rewrite map_length, combine_length; lia).
  unfold rectified_mean. cbv zeta. assert (WN : forall d, d <> 0 -> 2 * (10 * 10 ^ 6) / (1 / d) = 2 * (10 * 10 ^ 6) * d) by (intros d Hd; field; exact Hd). split.
  - intros (fs & [D ->] & y & (FS & V & b & a & E & A1 & A2 & F) & M). rewrite WN in * by exact D. split; [exact D|]. split; [exact V|].
    unfold fdiv in M. destruct (Req_EM_T (INR (length y)) 0) as [Z|Z]; [discriminate|]. injection M as <-. split; [intros ->; apply Z; destruct F as [LY _]; rewrite LY; reflexivity|]. split; [exact L|].
    exists y, b, a. repeat (split; [assumption|]). reflexivity.
  - intros (D & V & NE & _ & y & b & a & E & A1 & A2 & F & ->). exists (1 / dt). split; [split; [exact D|reflexivity]|]. exists y. rewrite WN by exact D. split; [split; [|split; [exact V|exists b, a; repeat (split; [assumption|]); assumption]]|].
    + unfold Rdiv. rewrite Rmult_1_l. apply Rinv_neq_0_compat, D.
    + unfold fdiv. destruct (Req_EM_T (INR (length y)) 0) as [Z|Z]; [|reflexivity]. exfalso. apply INR_eq with (m := 0%nat) in Z. destruct F as [LY _]. fold x in LY. assert (0 < length r)%nat by (destruct r; [congruence|cbn; lia]). lia.
Qed.
(** Superposition: the filter and the rectified_mean voltage are linear in the resistance. *)
Lemma filtered_linear b a x1 x2 y1 y2 c1 c2 : length x1 = length x2 -> filtered b a x1 y1 -> filtered b a x2 y2 ->
  filtered b a (map (fun p => c1 * fst p + c2 * snd p) (combine x1 x2)) (map (fun p => c1 * fst p + c2 * snd p) (combine y1 y2)).
Proof.
  intros LX [L1 F1] [L2 F2].
  assert (LIN : forall u v n, length u = length v -> nth n (map (fun p => c1 * fst p + c2 * snd p) (combine u v)) 0 = c1 * nth n u 0 + c2 * nth n v 0).
  { intros u v n L. destruct (Nat.lt_ge_cases n (length u)) as [H|H].
    - rewrite (nth_indep _ 0 (c1 * fst (0, 0) + c2 * snd (0, 0))) by (rewrite map_length, combine_length; lia).
      rewrite (map_nth (fun p => c1 * fst p + c2 * snd p) (combine u v) (0, 0) n). rewrite combine_nth by exact L. reflexivity.
    - rewrite !nth_overflow by (rewrite ?map_length, ?combine_length; lia). ring. }
  split; [rewrite !map_length, !combine_length; lia|]. intros n Hn. rewrite map_length, combine_length in Hn.
  rewrite (Rsum_ext _ (fun i => c1 * (coef a i * nth (n - i) y1 0) + c2 * (coef a i * nth (n - i) y2 0))) by (intros i _; rewrite LIN by congruence; ring).
  rewrite (Rsum_ext (fun i => coef b i * _) (fun i => c1 * (coef b i * nth (n - i) x1 0) + c2 * (coef b i * nth (n - i) x2 0))) by (intros i _; rewrite LIN by congruence; ring).
  rewrite !Rsum_plus, !Rsum_scal, F1, F2 by lia. reflexivity.
Qed.
Lemma Sigma_linear c1 c2 u : forall v, length u = length v -> Sigma (map (fun p => c1 * fst p + c2 * snd p) (combine u v)) = c1 * Sigma u + c2 * Sigma v.
Proof.
  induction u as [|x u IH]; intros [|y v] L; try discriminate; [unfold Sigma; cbn; ring|]. cbn [combine map]. rewrite !P_Compute.Sigma_cons, IH by (injection L as L; exact L). cbn [fst snd]. ring.
Qed.
Lemma rectified_linear design r1 r2 i dt v1 v2 c1 c2 : length r1 = length r2 -> rectified_mean design r1 i dt v1 -> rectified_mean design r2 i dt v2 ->
  rectified_mean design (map (fun p => c1 * fst p + c2 * snd p) (combine r1 r2)) i dt (c1 * v1 + c2 * v2).
Proof.
  intros LR (D & V & N1 & L1 & y1 & b & a & E & A1 & A2 & F1 & ->) (_ & _ & N2 & L2 & y2 & b' & a' & E' & _ & _ & F2 & ->). rewrite E in E'. injection E' as <- <-.
  split; [exact D|]. split; [exact V|]. split; [destruct r1; [congruence|]; destruct r2; [congruence|discriminate]|]. split; [rewrite map_length, combine_length; lia|].
  exists (map (fun p => c1 * fst p + c2 * snd p) (combine y1 y2)), b, a. split; [exact E|]. split; [exact A1|]. split; [exact A2|].
  assert (LY : length y1 = length y2) by (destruct F1 as [X _], F2 as [Y _]; rewrite X, Y, !map_length, !combine_length; lia). split.
  - assert (LP : length (map (fun p => - snd p * fst p) (combine r1 i)) = length (map (fun p => - snd p * fst p) (combine r2 i))) by (rewrite !map_length, !combine_length; lia).
    pose proof (filtered_linear b a _ _ _ _ c1 c2 LP F1 F2) as F.
    replace (map (fun p => - snd p * fst p) (combine (map (fun p => c1 * fst p + c2 * snd p) (combine r1 r2)) i)) with
      (map (fun p => c1 * fst p + c2 * snd p) (combine (map (fun p => - snd p * fst p) (combine r1 i)) (map (fun p => - snd p * fst p) (combine r2 i)))); [exact F|].
    clear -LR L1. revert r2 i LR L1. induction r1 as [|x r1 IH]; intros [|x2 r2] [|y i] LR L1; try discriminate; [reflexivity|]. cbn. f_equal; [ring|]. apply IH; [injection LR as LR; exact LR|injection L1 as L1; exact L1].
  - rewrite Sigma_linear by exact LY. rewrite map_length, combine_length, <- LY, Nat.min_id. unfold Rdiv. ring.
Qed.
(** Steps of 50 ns or more (or negative ones) never work: the cut-off of 10 MHz has to lie below half the sampling rate. *)
Lemma rectified_step design r i dt v : rectified_mean design r i dt v -> 0 < dt < / (2 * 10 ^ 7).
Proof. intros (_ & [V W] & _). split; nra. Qed.

(** ** One entry *)
Lemma sine_driver_iff amp f d : getSineDriver 0 amp f 0 = Ok d <-> f <> -1 /\ d = field_sine amp f.
Proof.
  unfold getSineDriver, mkScalarDriver, Reqb. cbn [update_eqb andb]. destruct (Req_EM_T f (-1)) as [E|E]; [split; [discriminate|intros [X _]; contradiction]|]. split; [intros X; injection X as <-; split; [exact E|reflexivity]|intros [_ ->]; reflexivity].
Qed.
(** What one measurement leaves in the log, with the resistance columns. *)
Lemma measured_more rnd H oe d pos T dt j j1 j2 : named j -> prepared_for rnd H oe d pos j j1 -> runSimulation T dt dt false RK4 j1 = (j2, Ok tt) ->
  exists N s, experiment T dt j1 j2 N s /\ kin (j_layers j) (j_layers j2) /\ named j2 /\ logged_run dt (j_layers j) N s (j_log j2) /\
    log_get "Resistance" (j_log j2) = None /\
    forall i0 i1, (0 < N)%nat -> ids j = [i0; i1] -> log_get ("R_" ++ i0 ++ "_" ++ i1)%string (j_log j2) =
       match j_mode j with MR_CLASSIC => Some (map (fun k => GMR (j_Rp j) (j_Rap j) (Dot (sample_of s 0 k) (sample_of s 1 k))) (seq 0 N)) | _ => None end.
Proof.
  intros NM PF ER. destruct (measured _ _ _ _ _ _ _ _ _ _ NM PF ER) as (N & s & EX & K & NM2 & LR). exists N, s. repeat (split; [assumption|]).
  destruct (prepared_for_shape _ _ _ _ _ _ _ PF) as (SH & L0 & L1 & K1). destruct (fresh_log T dt j1 j2 (named_shape _ _ SH NM) L0 L1 ER) as (N' & s' & EX' & _ & _ & _ & _ & KEY & RT).
  destruct (experiment_det _ _ _ _ _ _ _ _ _ EX EX') as (-> & _ & ES). split; [apply KEY; [reflexivity|discriminate..]|].
  intros i0 i1 P EI. destruct PF as (_ & ls & Ej & _). destruct SH as (EI1 & EM & _). assert (LL : exists l0 l1, j_layers j1 = [l0; l1] /\ l_id l0 = i0 /\ l_id l1 = i1).
  { rewrite EI in EI1. unfold ids in EI1. destruct (j_layers j1) as [|l0 [|l1 [|l2 r]]]; try discriminate. injection EI1 as <- <-. exists l0, l1. repeat split. }
  destruct LL as (l0 & l1 & EL & <- & <-). rewrite (RT l0 l1 P EL), EM. destruct (j_mode j); try reflexivity. f_equal. rewrite Ej. cbn [j_Rp j_Rap set_j_log set_j_layers].
  apply map_ext_in. intros k Hk. apply in_seq in Hk. unfold sample_of. rewrite (ES (S k)) by lia. reflexivity.
Qed.
Lemma rows_read dt ls N s g ids : map l_id ls = ids -> logged_run dt ls N s g -> (0 < N)%nat -> ls <> [] -> mapM (layer_traj g) ids = Ok (map (samples s N) (seq 0 (length ls))).
Proof.
  intros <- LR P NE. rewrite (mapM_mapi (layer_traj g) (fun p _ => samples s N p)).
  - f_equal. apply list_ext. intros p. rewrite mapi_nth. rewrite nth_error_map. destruct (nth_error ls p) as [l|] eqn:E.
    + assert (p < length ls)%nat by (apply nth_error_Some; congruence). rewrite nth_error_map_seq by assumption. reflexivity.
    + apply nth_error_None in E. symmetry. apply nth_error_None. rewrite map_length, seq_length. exact E.
  - intros p id Hp. rewrite nth_error_map in Hp. destruct (nth_error ls p) as [l|] eqn:E; [|discriminate]. injection Hp as <-. exact (traj_read dt ls N s g p l LR P E).
Qed.
Lemma no_rows dt ls N s g ids : map l_id ls = ids -> logged_run dt ls N s g -> N = 0%nat -> ls <> [] -> forall r, mapM (layer_traj g) ids <> Ok r.
Proof.
  intros <- [Z _] E NE r X. rewrite (Z E) in X. destruct ls as [|l ls]; [contradiction|]. cbn in X. discriminate.
Qed.
Lemma layer_cases {X} (xs : list X) : xs <> [] -> (exists a, xs = [a]) \/ (exists a b, xs = [a; b]) \/ (exists a b c r, xs = a :: b :: c :: r).
Proof. destruct xs as [|a [|b [|c r]]]; [congruence|left|right; left|right; right]; eauto 8. Qed.
Section Entry.
Context (design : coefficients) (a : vsd_args) (params : list resparams).
Context (SF : sampled_fn (va_fn a)).
Lemma vsd_read_iff f j j2 N s v : j_layers j <> [] ->
  logged_run (va_int_step a) (j_layers j) N s (j_log j2) -> log_get "Resistance" (j_log j2) = None ->
  (forall i0 i1, (0 < N)%nat -> ids j = [i0; i1] -> log_get ("R_" ++ i0 ++ "_" ++ i1)%string (j_log j2) =
       match j_mode j with MR_CLASSIC => Some (map (fun k => GMR (j_Rp j) (j_Rap j) (Dot (sample_of s 0 k) (sample_of s 1 k))) (seq 0 N)) | _ => None end) ->
  vsd_read design a params (ids j) f j2 = Ok v <->
  (0 < N)%nat /\ exists r, vsd_resistance a params j N s r /\ rectified_mean design r (map (fun k => sin (2 * PI * f * (INR k * va_int_step a))) (seq 0 N)) (va_int_step a) v.
Proof.
  intros NE LR NR RT. unfold vsd_read. cbv zeta. destruct (Nat.eq_dec N 0) as [Z|Z].
  { split; [|intros [X _]; lia]. intros E. exfalso. apply rbind_inv in E. destruct E as (r & E & _). exact (no_rows _ _ _ _ _ (ids j) eq_refl LR Z NE r E). }
  assert (P : (0 < N)%nat) by lia. rewrite (rows_read _ _ _ _ _ (ids j) eq_refl LR P NE). cbn [rbind].
  assert (SK : stacked (map (samples s N) (seq 0 (length (j_layers j)))) = Ok (map (samples s N) (seq 0 (length (j_layers j))))).
  { destruct (length (j_layers j)) as [|n] eqn:El; [destruct (j_layers j); [congruence|discriminate]|]. cbn [seq map stacked]. rewrite (proj2 (forallb_forall _ _)); [reflexivity|].
    intros q Hq. apply in_map_iff in Hq. destruct Hq as (p & <- & _). rewrite !samples_length. apply Nat.eqb_refl. }
  rewrite SK. cbn [rbind]. assert (HD : length (hd [] (map (samples s N) (seq 0 (length (j_layers j))))) = N).
  { destruct (length (j_layers j)) as [|n] eqn:El; [destruct (j_layers j); [congruence|discriminate]|]. cbn. apply samples_length. }
  rewrite HD. assert (TM : dict_at "time" (j_log j2) = Ok (map (fun k => INR k * va_int_step a) (seq 0 N))) by (unfold dict_at; destruct LR as [_ LR]; destruct (LR P) as [T _]; rewrite T; reflexivity).
  rewrite rbind_iff. setoid_rewrite TM. cbn [rbind]. setoid_rewrite map_map.
  match goal with |- (exists r, ?E = Ok r /\ _) <-> _ => assert (RES : forall r, E = Ok r <-> vsd_resistance a params j N s r) end.
  { intros r. unfold vsd_resistance. cbv zeta. change (layerNo j) with (length (j_layers j)). destruct (String.eqb (va_Rtype a) "Rz") eqn:EZ.
    - apply String.eqb_eq in EZ. rewrite EZ. 
      assert (NX : ~ exists rx ry, va_fn a (strips_of params) N (map (samples s N) (seq 0 (length (j_layers j)))) = Ok (rx, ry) /\ (("Rz"%string = "Rx"%string /\ r = rx) \/ ("Rz"%string = "Ry"%string /\ r = ry))).
      { intros (rx & ry & _ & [[X _]|[X _]]); discriminate. }
      assert (LI : length (ids j) = length (j_layers j)) by (unfold ids; apply map_length). assert (NI : ids j <> []) by (intros X; rewrite X in LI; destruct (j_layers j); [congruence|discriminate]).
      destruct (layer_cases _ NI) as [(i0 & EI)|[(i0 & i1 & EI)|(i0 & i1 & i2 & rest & EI)]].
      + rewrite EI in *. unfold dict_at. rewrite NR. split; [discriminate|]. intros [(_ & X & _)|X]; [cbn in LI; lia|contradiction].
      + unfold dict_at. pose proof (RT i0 i1 P EI) as RT'. rewrite EI in *. rewrite RT'. destruct (j_mode j) eqn:EM.
        * split; [discriminate|]. intros [(_ & _ & X & _)|X]; [discriminate|contradiction].
        * split; [intros X; injection X as <-; left; cbn in LI; repeat split; lia|]. intros [(_ & _ & _ & ->)|X]; [reflexivity|contradiction].
        * split; [discriminate|]. intros [(_ & _ & X & _)|X]; [discriminate|contradiction].
      + rewrite EI in *. split; [discriminate|]. intros [(_ & X & _)|X]; [cbn in LI; lia|contradiction].
    - apply String.eqb_neq in EZ. destruct (va_fn a (strips_of params) N (map (samples s N) (seq 0 (length (j_layers j))))) as [[rx ry]|e]; cbn [rbind fst snd].
      + destruct (String.eqb (va_Rtype a) "Rx") eqn:EX; [|destruct (String.eqb (va_Rtype a) "Ry") eqn:EY].
        * apply String.eqb_eq in EX. split; [intros X; injection X as <-; right; exists rx, ry; auto|]. intros [(X & _)|(rx' & ry' & X & [[_ ->]|[Y _]])]; [contradiction|injection X as <- <-; reflexivity|congruence].
        * apply String.eqb_eq in EY. split; [intros X; injection X as <-; right; exists rx, ry; auto|]. intros [(X & _)|(rx' & ry' & X & [[Y _]|[_ ->]])]; [contradiction|congruence|injection X as <- <-; reflexivity].
        * apply String.eqb_neq in EX. apply String.eqb_neq in EY. split; [discriminate|]. intros [(X & _)|(rx' & ry' & X & [[Y _]|[Y _]])]; contradiction.
      + split; [discriminate|]. intros [(X & _)|(rx' & ry' & X & _)]; [contradiction|discriminate]. }
  assert (LEN : forall r, vsd_resistance a params j N s r -> length r = N).
  { intros r [(_ & _ & _ & ->)|(rx & ry & E & [[_ ->]|[_ ->]])]; [rewrite map_length, seq_length; reflexivity|apply (SF _ _ _ _ _ E)|apply (SF _ _ _ _ _ E)]. }
  split.
  - intros (r & E & X). apply RES in E. split; [exact P|]. exists r. split; [exact E|]. apply sd_iff; [rewrite map_length, seq_length; symmetry; apply LEN, E|exact X].
  - intros (_ & r & E & X). exists r. split; [apply RES, E|]. apply sd_iff; [rewrite map_length, seq_length; symmetry; apply LEN, E|exact X].
Qed.
Lemma entry_iff rnd H f st st' v : named (fst st) -> ~ In "all"%string (ids (fst st)) ->
  simulate_VSD design rnd a params (ids (fst st)) H f st = (st', Ok v) <-> vsd_entry design rnd a params H f st st' v.
Proof.
  destruct st as [j pos], st' as [j' pos']. cbn [fst snd]. intros NM NA. unfold simulate_VSD, vsd_entry. cbn [fst snd]. split.
  - intros E. unfold bind at 1, lift at 1 in E. destruct (getSineDriver 0 (va_excitation a) f 0) as [d|e] eqn:ED; [|discriminate]. apply sine_driver_iff in ED. destruct ED as [Ef ->]. rewrite oe_driver_along in E.
    unfold bind at 1 in E. destruct (measure _ _ _ _ _ _ _ _) as [[j2 pos2] [[]|e]] eqn:EM; [|discriminate]. apply measure_iff in EM; [|apply NM|exact NA]. destruct EM as (j1 & PF & ER & ->).
    unfold bind at 1, get, lift in E. cbn [fst] in E. destruct (measured_more _ _ _ _ _ _ _ _ _ _ NM PF ER) as (N & s & EX & K & NM2 & LR & NR & RT).
    assert (EV : vsd_read design a params (ids j) f j2 = Ok v) by congruence. assert (EJ : j' = j2 /\ pos' = (pos + drawn (va_disturbance a) (layerNo j))%nat) by (split; congruence). destruct EJ as [-> ->].
    apply (vsd_read_iff f j j2 N s v (proj1 PF) LR NR RT) in EV. destruct EV as (P & r & VR & RE). exists j1, N, s, r. repeat (split; [first [assumption|reflexivity]|]). assumption.
  - intros (j1 & N' & s' & r & Ef & PF & EX & P & -> & VR & RE). unfold bind at 1, lift at 1. rewrite (proj2 (sine_driver_iff (va_excitation a) f _) (conj Ef eq_refl)). rewrite oe_driver_along.
    assert (ER : runSimulation (va_simulation a) (va_int_step a) (va_int_step a) false RK4 j1 = (j', Ok tt)) by apply EX.
    assert (EM := proj2 (measure_iff rnd H (along_axis (va_direction a) (field_sine (va_excitation a) f)) (va_disturbance a) (va_simulation a) (va_int_step a) j pos j' (pos + drawn (va_disturbance a) (layerNo j)) (proj2 (proj2 NM)) NA) (ex_intro _ j1 (conj PF (conj ER eq_refl)))).
    unfold bind at 1. rewrite EM. unfold bind at 1, get, lift. cbn [fst].
    destruct (measured_more _ _ _ _ _ _ _ _ _ _ NM PF ER) as (N & s & EX' & K & NM2 & LR & NR & RT). destruct (experiment_det _ _ _ _ _ _ _ _ _ EX EX') as (-> & _ & ES).
    assert (EV : vsd_read design a params (ids j) f j' = Ok v); [|rewrite EV; reflexivity].
    apply (vsd_read_iff f j j' N' s v (proj1 PF) LR NR RT). split; [exact P|]. exists r. split; [|exact RE].
    assert (SE : forall p k, (k < N')%nat -> sample_of s p k = sample_of s' p k) by (intros p k Hk; unfold sample_of; rewrite ES by lia; reflexivity).
    destruct VR as [(A & B & C & ->)|(rx & ry & E & X)]; [left|right].
    + repeat (split; [assumption|]). apply map_ext_in. intros k Hk. apply in_seq in Hk. rewrite !SE by lia. reflexivity.
    + exists rx, ry. split; [|exact X]. rewrite <- E. f_equal. apply map_ext. intros p. apply samples_eq. intros k Hk. apply ES. exact Hk.
Qed.
Lemma entry_named rnd H f st st' v : named (fst st) -> vsd_entry design rnd a params H f st st' v -> named (fst st') /\ ids (fst st') = ids (fst st).
Proof.
  intros NM (j1 & N & s & r & _ & PF & EX & _). destruct (measured _ _ _ _ _ _ _ _ _ _ NM PF (proj1 EX)) as (_ & _ & _ & K & NM2 & _). split; [exact NM2|apply kin_ids, K].
Qed.
Lemma line_iff rnd H fs : forall st st' vs, named (fst st) -> ~ In "all"%string (ids (fst st)) ->
  for_each (simulate_VSD design rnd a params (ids (fst st)) H) fs st = (st', Ok vs) <-> vsd_line design rnd a params H fs st st' vs.
Proof.
  induction fs as [|f fs IH]; intros st st' vs NM NA.
  - cbn. unfold ret. split; [intros E; injection E as <- <-; constructor|intros E; inversion E; subst; reflexivity].
  - cbn [for_each]. unfold bind at 1. split.
    + intros E. destruct (simulate_VSD design rnd a params (ids (fst st)) H f st) as [st1 [v|e]] eqn:E1; [|discriminate]. apply entry_iff in E1; [|exact NM|exact NA].
      destruct (entry_named _ _ _ _ _ _ NM E1) as [NM1 EI]. unfold bind at 1 in E. rewrite <- EI in E. destruct (for_each _ fs st1) as [st2 [vs'|e]] eqn:E2; [|discriminate]. unfold ret in E. injection E as <- <-.
      apply IH in E2; [|exact NM1|rewrite EI; exact NA]. econstructor; eassumption.
    + intros E. inversion E as [|f' fs' s0 st1 st2 v vs' E1 E2]; subst. destruct (entry_named _ _ _ _ _ _ NM E1) as [NM1 EI]. apply entry_iff in E1; [|exact NM|exact NA]. rewrite E1. unfold bind at 1.
      apply IH in E2; [|exact NM1|rewrite EI; exact NA]. rewrite EI in E2. rewrite E2. reflexivity.
Qed.
Lemma line_named rnd H fs st st' vs : vsd_line design rnd a params H fs st st' vs -> named (fst st) -> named (fst st') /\ ids (fst st') = ids (fst st).
Proof.
  intros L. induction L as [st|f fs st st1 st2 v vs E L IH]; intros NM; [split; [exact NM|reflexivity]|]. destruct (entry_named _ _ _ _ _ _ NM E) as [NM1 EI]. destruct (IH NM1) as [A B]. split; [exact A|congruence].
Qed.
Lemma lines_iff rnd Hs : forall st st' vs, named (fst st) -> ~ In "all"%string (ids (fst st)) ->
  for_each (fun H => for_each (simulate_VSD design rnd a params (ids (fst st)) H) (va_frequencies a)) Hs st = (st', Ok vs) <-> vsd_lines design rnd a params Hs st st' vs.
Proof.
  induction Hs as [|H Hs IH]; intros st st' vs NM NA.
  - cbn. unfold ret. split; [intros E; injection E as <- <-; constructor|intros E; inversion E; subst; reflexivity].
  - cbn [for_each]. unfold bind at 1. split.
    + intros E. destruct (for_each (simulate_VSD design rnd a params (ids (fst st)) H) (va_frequencies a) st) as [st1 [v|e]] eqn:E1; [|discriminate]. apply line_iff in E1; [|exact NM|exact NA].
      destruct (line_named _ _ _ _ _ _ E1 NM) as [NM1 EI]. unfold bind at 1 in E. rewrite <- EI in E. destruct (for_each _ Hs st1) as [st2 [vs'|e]] eqn:E2; [|discriminate]. unfold ret in E. injection E as <- <-.
      apply IH in E2; [|exact NM1|rewrite EI; exact NA]. econstructor; eassumption.
    + intros E. inversion E as [|H' Hs' s0 st1 st2 v vs' E1 E2]; subst. destruct (line_named _ _ _ _ _ _ E1 NM) as [NM1 EI]. apply line_iff in E1; [|exact NM|exact NA]. rewrite E1. unfold bind at 1.
      apply IH in E2; [|exact NM1|rewrite EI; exact NA]. rewrite EI in E2. rewrite E2. reflexivity.
Qed.
End Entry.
Theorem vsd_iff design rnd a st st' out : sampled_fn (va_fn a) -> named (fst st) -> ~ In "all"%string (ids (fst st)) ->
  VSD_procedure design rnd a st = (st', Ok out) <->
  (va_Rtype a = "Rz"%string -> (layerNo (fst st) <= 2)%nat) /\ length (given a) = layerNo (fst st) /\ vsd_lines design rnd a (given a) (va_Hvecs a) st st' out.
Proof.
  intros SF NM NA. unfold VSD_procedure. fold (given a). cbv zeta. unfold bind at 1, get. change (getLayerIds (fst st)) with (ids (fst st)). assert (LI : length (ids (fst st)) = layerNo (fst st)) by (unfold ids; apply map_length). rewrite LI.
  destruct (String.eqb (va_Rtype a) "Rz" && Nat.ltb 2 (layerNo (fst st))) eqn:EZ.
  { split; [discriminate|]. intros (X & _). apply andb_prop in EZ. destruct EZ as [A B]. apply String.eqb_eq in A. apply Nat.ltb_lt in B. specialize (X A). lia. }
  destruct (Nat.eqb (length (given a)) (layerNo (fst st))) eqn:EL; cbn [negb].
  2: { apply Nat.eqb_neq in EL. split; [discriminate|]. intros (_ & X & _). contradiction. }
  apply Nat.eqb_eq in EL. rewrite (lines_iff design a (given a) SF rnd (va_Hvecs a) st st' out NM NA). split; [|intros (_ & _ & X); exact X].
  intros X. split; [|split; [exact EL|exact X]]. intros A. rewrite A in EZ. cbn [String.eqb andb] in EZ. apply Bool.andb_false_iff in EZ. destruct EZ as [EZ|EZ]; [discriminate|]. apply Nat.ltb_ge in EZ. exact EZ.
Qed.
