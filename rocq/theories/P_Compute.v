(** Characterisation of the log analysis functions. *)
From Verif Require Export P_Math P_NoiseBuf P_Llgb S_Compute.
From Coq Require Import Psatz Ascii.
Open Scope R_scope.
Open Scope st_scope.

(** ** Strings *)
Lemma chars_app a b : list_ascii_of_string (a ++ b) = (list_ascii_of_string a ++ list_ascii_of_string b)%list.
Proof. induction a as [|c a IH]; [reflexivity|]. cbn. rewrite IH. reflexivity. Qed.
Lemma chars_inj a b : list_ascii_of_string a = list_ascii_of_string b -> a = b.
Proof. intros H. rewrite <- (string_of_list_ascii_of_string a), <- (string_of_list_ascii_of_string b), H. reflexivity. Qed.
Lemma suffix_inj a b s : (a ++ s = b ++ s)%string -> a = b.
Proof. intros H. apply (f_equal list_ascii_of_string) in H. rewrite !chars_app in H. apply app_inv_tail in H. apply chars_inj, H. Qed.
Definition last_char (s : string) : option ascii := hd_error (rev (list_ascii_of_string s)).
Lemma last_app a b : b <> EmptyString -> last_char (a ++ b) = last_char b.
Proof.
  intros H. unfold last_char. rewrite chars_app, rev_app_distr. destruct (rev (list_ascii_of_string b)) as [|c l] eqn:E; [|reflexivity].
  exfalso. apply H, chars_inj. apply (f_equal (@rev ascii)) in E. rewrite rev_involutive in E. exact E.
Qed.
Lemma keys_differ a b : (a ++ "_amplitude" <> b ++ "_phase")%string /\ (a ++ "_amplitude" <> "frequencies")%string /\ (a ++ "_phase" <> "frequencies")%string.
Proof.
  assert (L : forall u v, last_char u <> last_char v -> u <> v) by (intros u v H E; apply H; rewrite E; reflexivity).
  split; [|split].
  - intros E. apply (f_equal list_ascii_of_string) in E. rewrite !chars_app in E. apply (f_equal (@rev ascii)) in E. rewrite !rev_app_distr in E. cbn in E. discriminate.
  - apply L. rewrite last_app by discriminate. discriminate.
  - apply L. rewrite last_app by discriminate. discriminate.
Qed.

(** ** Maps *)
Lemma put_same k v g : log_get k (log_put k v g) = Some v.
Proof. induction g as [|[k' c] g IH]; cbn; [rewrite String.eqb_refl; reflexivity|]. destruct (String.eqb_spec k' k); cbn; [subst; rewrite String.eqb_refl; reflexivity|]. destruct (String.eqb_spec k' k); [contradiction|exact IH]. Qed.
Lemma put_other k k' v g : k' <> k -> log_get k' (log_put k v g) = log_get k' g.
Proof.
  intros H. induction g as [|[q c] g IH]; cbn; [destruct (String.eqb_spec k k'); [congruence|reflexivity]|].
  destruct (String.eqb_spec q k) as [->|E]; cbn; [destruct (String.eqb_spec k k'); [congruence|reflexivity]|]. destruct (String.eqb q k'); [reflexivity|exact IH].
Qed.
Lemma log_at_value key g : exists g', log_at key g = (g', Ok (col key g)) /\ (log_get key g <> None -> g' = g).
Proof. unfold log_at, col. destruct (log_get key g); eexists; split; try reflexivity; intros; congruence. Qed.

(** ** Ranges *)
Lemma threshold_iff m ts p : threshold m ts = p <-> first_at m ts p.
Proof.
  assert (S : forall ts, first_at m ts (threshold m ts)).
  { clear. induction ts as [|t ts (L & B & A)]; cbn [threshold]; [split; [cbn; lia|]; split; [intros; lia|intros t X; discriminate]|]. destruct (Rle_dec m t) as [H|H].
    - split; [cbn; lia|]. split; [intros; lia|]. intros u E. cbn in E. injection E as <-. exact H.
    - split; [cbn [length]; lia|]. split; [|exact A]. intros [|k] u Hk E; cbn in E; [injection E as <-; lra|apply (B k); [lia|exact E]]. }
  split; [intros <-; apply S|]. intros (L & B & A). destruct (S ts) as (L' & B' & A').
  destruct (Nat.lt_trichotomy (threshold m ts) p) as [H|[H|H]]; [|exact H|]; exfalso.
  - destruct (nth_error ts (threshold m ts)) as [t|] eqn:E; [|apply nth_error_None in E; lia]. pose proof (B _ _ H E). pose proof (A' _ eq_refl). lra.
  - destruct (nth_error ts p) as [t|] eqn:E; [|apply nth_error_None in E; lia]. pose proof (B' _ _ H E). pose proof (A _ eq_refl). lra.
Qed.
Lemma max_attained x xs : attained_max (x :: xs) (max_element x xs).
Proof.
  unfold max_element. revert x. induction xs as [|y xs IH]; intros x; cbn [fold_left]; [split; [left; reflexivity|intros z [<-|[]]; lra]|].
  destruct (IH (if Rlt_dec x y then y else x)) as [H1 H2]. pose proof (H2 _ (or_introl eq_refl)) as H3. split.
  - destruct H1 as [E|H1]; [rewrite <- E; destruct (Rlt_dec x y); cbn; auto|right; right; exact H1].
  - intros z [<-|[<-|Hz]]; [destruct (Rlt_dec x y); lra|destruct (Rlt_dec x y); lra|apply H2; right; exact Hz].
Qed.
Lemma min_attained x xs : attained_min (x :: xs) (min_element x xs).
Proof.
  unfold min_element. revert x. induction xs as [|y xs IH]; intros x; cbn [fold_left]; [split; [left; reflexivity|intros z [<-|[]]; lra]|].
  destruct (IH (if Rlt_dec y x then y else x)) as [H1 H2]. pose proof (H2 _ (or_introl eq_refl)) as H3. split.
  - destruct H1 as [E|H1]; [rewrite <- E; destruct (Rlt_dec y x); cbn; auto|right; right; exact H1].
  - intros z [<-|[<-|Hz]]; [destruct (Rlt_dec y x); lra|destruct (Rlt_dec y x); lra|apply H2; right; exact Hz].
Qed.
Lemma max_unique xs a b : attained_max xs a -> attained_max xs b -> a = b.
Proof. intros [A1 A2] [B1 B2]. pose proof (A2 _ B1). pose proof (B2 _ A1). lra. Qed.
Lemma min_unique xs a b : attained_min xs a -> attained_min xs b -> a = b.
Proof. intros [A1 A2] [B1 B2]. pose proof (A2 _ B1). pose proof (B2 _ A1). lra. Qed.
Lemma Sigma_cons x xs : Sigma (x :: xs) = x + Sigma xs.
Proof. unfold Sigma. cbn [length]. rewrite Rsum_head. reflexivity. Qed.
Lemma fold_Sigma xs : forall a, fold_left Rplus xs a = a + Sigma xs.
Proof. induction xs as [|x xs IH]; intros a; cbn [fold_left]; [unfold Sigma; cbn; ring|]. rewrite IH, Sigma_cons. ring. Qed.
Lemma nth_skipn {A} (xs : list A) p k d : nth k (skipn p xs) d = nth (p + k) xs d.
Proof. revert xs. induction p as [|p IH]; intros [|x xs]; cbn; try reflexivity; [destruct k; reflexivity|apply IH]. Qed.
Lemma nth_error_skipn {A} (xs : list A) p k : nth_error (skipn p xs) k = nth_error xs (p + k).
Proof. revert xs. induction p as [|p IH]; intros [|x xs]; cbn; try reflexivity; [destruct k; reflexivity|apply IH]. Qed.

(** ** Spin diode *)
Lemma voltage_iff res p : forall cs i vs, vsd_voltage res p i cs = Ok vs <->
  (forall k, (k < length cs)%nat -> (p + i + k < length res)%nat) /\ length vs = length cs /\ forall k, (k < length cs)%nat -> nth k vs 0 = nth (p + i + k) res 0 * nth k cs 0.
Proof.
  induction cs as [|c cs IH]; intros i vs; cbn [vsd_voltage].
  - split; [intros E; injection E as <-; split; [cbn; intros; lia|]; split; [reflexivity|cbn; intros; lia]|]. intros (_ & L & _). destruct vs; [reflexivity|discriminate].
  - destruct (nth_error res (p + i)) as [r|] eqn:E.
    + assert (Er : nth (p + i) res 0 = r) by (apply nth_error_nth, E). assert (Lr : (p + i < length res)%nat) by (apply nth_error_Some; congruence). split.
      * intros H. unfold rbind in H. destruct (vsd_voltage res p (S i) cs) as [ws|e] eqn:EV; [|discriminate]. injection H as <-. apply IH in EV. destruct EV as (A & B & C). split; [|split].
        -- intros [|k] Hk; [lia|]. cbn [length] in Hk. specialize (A k ltac:(lia)). lia.
        -- cbn. rewrite B. reflexivity.
        -- intros [|k] Hk; cbn [nth]; [rewrite Nat.add_0_r, Er; reflexivity|]. cbn [length] in Hk. rewrite C by lia. replace (p + S i + k)%nat with (p + i + S k)%nat by lia. reflexivity.
      * intros (A & B & C). destruct vs as [|v vs]; [discriminate|]. assert (EV : vsd_voltage res p (S i) cs = Ok vs).
        { apply IH. split; [|split; [cbn in B; lia|]].
          - intros k Hk. specialize (A (S k)). cbn [length] in A. specialize (A ltac:(lia)). lia.
          - intros k Hk. specialize (C (S k)). cbn [length nth] in C. rewrite C by lia. replace (p + i + S k)%nat with (p + S i + k)%nat by lia. reflexivity. }
        rewrite EV. cbn. f_equal. f_equal. specialize (C 0%nat ltac:(cbn; lia)). cbn [nth] in C. rewrite Nat.add_0_r, Er in C. symmetry. exact C.
    + split; [discriminate|]. intros (A & _). exfalso. specialize (A 0%nat ltac:(cbn; lia)). apply nth_error_None in E. lia.
Qed.
Lemma Sigma_nth xs n f : length xs = n -> (forall k, (k < n)%nat -> nth k xs 0 = f k) -> Sigma xs = Rsum f n.
Proof. intros <- H. unfold Sigma. apply Rsum_ext, H. Qed.
Lemma nth_map_skip (h : R -> R) p xs k : (k < length xs - p)%nat -> nth k (map h (skipn p xs)) 0 = h (nth (p + k) xs 0).
Proof. intros H. rewrite (nth_indep _ 0 (h 0)) by (rewrite map_length, skipn_length; exact H). rewrite map_nth, nth_skipn. reflexivity. Qed.
Lemma diode_sound g tag f power minTime g' r : calculateVoltageSpinDiode tag f power minTime g = (g', Ok r) -> g' = g /\ diode_result g tag f power minTime r.
Proof.
  unfold calculateVoltageSpinDiode. rewrite get_bind. destruct g as [|e g0]; [discriminate|]. set (g := e :: g0). clearbody g. clear e g0.
  destruct (log_get tag g) as [res|] eqn:ER; [|discriminate]. intros H. cbv zeta in H. apply bind_iff in H. destruct H as (g1 & time & HT & H).
  set (p := threshold minTime time) in *. destruct (skipn p res) as [|r0 rs] eqn:ES; [discriminate|].
  apply bind_fdiv in H. destruct H as [HN H]. apply bind_fdiv in H. destruct H as [HA H]. apply bind_value in H. destruct H as (I & HI & H). apply bind_value in H. destruct H as (vs & HV & H).
  apply bind_fdiv in H. destruct H as [HL H]. apply ret_iff in H. destruct H as [-> ->].
  assert (HT' : g1 = g /\ log_get "time" g = Some time).
  { unfold log_at in HT. destruct (log_get "time" g) as [c|] eqn:E; [injection HT as <- <-; auto|]. exfalso. injection HT as _ <-. apply HN. cbn. reflexivity. }
  destruct HT' as [-> HT']. split; [reflexivity|]. apply voltage_iff in HV. rewrite map_length, skipn_length in HV. destruct HV as (V1 & V2 & V3).
  assert (F : first_at minTime time p) by (apply threshold_iff; reflexivity).
  assert (NP : (0 < length time - p)%nat) by (destruct (length time - p)%nat; [cbn in HN; lra|lia]).
  apply fsqrt_iff in HI. destruct HI as (Q1 & ->). rewrite fold_Sigma, Rplus_0_l in *.
  exists time, res, p, (max_element r0 rs), (min_element r0 rs). eexists. split; [exact HT'|]. split; [exact ER|]. split; [exact F|]. cbv zeta. split; [exact NP|]. rewrite ES.
  split; [specialize (V1 (length time - p - 1)%nat ltac:(lia)); lia|]. split; [apply max_attained|]. split; [apply min_attained|]. split; [exact HA|].
  split; [apply sqrt_pos|]. split; [apply sqrt_sqrt, Q1|]. repeat rewrite fold_Sigma. repeat rewrite Rplus_0_l. rewrite V2.
  set (J := sqrt (power / (Sigma (r0 :: rs) / INR (length time - p)))) in *.
  rewrite (Sigma_nth vs (length time - p) (fun k => J * (nth (p + k) res 0 * sin (2 * PI * f * nth (p + k) time 0))) V2).
  - rewrite Rsum_scal. replace (J * Rsum (fun k : nat => nth (p + k) res 0 * sin (2 * PI * f * nth (p + k) time 0)) (length time - p) / INR (length time - p))
      with (J * (Rsum (fun k : nat => nth (p + k) res 0 * sin (2 * PI * f * nth (p + k) time 0)) (length time - p) / INR (length time - p))) by (unfold Rdiv; ring). reflexivity.
  - intros k Hk. rewrite V3 by exact Hk. rewrite Nat.add_0_r. rewrite (nth_map_skip (fun t => J * sin (2 * PI * f * t))) by exact Hk. ring.
Qed.
Lemma sqrt_unique x y : 0 <= x -> x * x = y -> sqrt y = x.
Proof. intros H <-. apply sqrt_square, H. Qed.
Lemma diode_complete g tag f power minTime r : diode_result g tag f power minTime r -> calculateVoltageSpinDiode tag f power minTime g = (g, Ok r).
Proof.
  intros (time & res & p & mx & mn & I & HT & ER & F & H). cbv zeta in H. destruct H as (NP & LT & MX & MN & HM & HI & HQ & ->).
  pose proof (proj2 (threshold_iff _ _ _) F) as TP.
  unfold calculateVoltageSpinDiode. rewrite get_bind. destruct g as [|e g0]; [discriminate|]. set (g := e :: g0) in *. clearbody g. clear e g0.
  rewrite ER. cbv zeta. apply bind_iff. exists g, time. split; [unfold log_at; rewrite HT; reflexivity|]. rewrite TP.
  destruct (skipn p res) as [|r0 rs] eqn:ES; [destruct MX as [[] _]|].
  assert (HN : INR (length time - p) <> 0) by (apply not_0_INR; lia).
  apply bind_fdiv. split; [exact HN|]. rewrite fold_Sigma, Rplus_0_l. apply bind_fdiv. split; [exact HM|]. apply bind_value. exists I. split.
  { apply fsqrt_iff. split; [rewrite <- HQ; nra|]. symmetry. apply sqrt_unique; assumption. }
  set (cs := map (fun t => I * sin (2 * PI * f * t)) (skipn p time)).
  assert (LC : length cs = (length time - p)%nat) by (unfold cs; rewrite map_length, skipn_length; reflexivity).
  assert (CN : forall k, (k < length time - p)%nat -> nth k cs 0 = I * sin (2 * PI * f * nth (p + k) time 0)).
  { intros k Hk. exact (nth_map_skip (fun t => I * sin (2 * PI * f * t)) p time k Hk). }
  set (vs := map (fun k => nth (p + k) res 0 * nth k cs 0) (seq 0 (length time - p))).
  assert (LV : length vs = (length time - p)%nat) by (unfold vs; rewrite map_length, seq_length; reflexivity).
  assert (VN : forall k, (k < length time - p)%nat -> nth k vs 0 = nth (p + k) res 0 * nth k cs 0).
  { intros k Hk. unfold vs. apply (nth_map_seq (fun k => nth (p + k) res 0 * nth k cs 0)); exact Hk. }
  apply bind_value. exists vs. split.
  { apply voltage_iff. rewrite LC. split; [intros k Hk; lia|]. split; [exact LV|]. intros k Hk. rewrite Nat.add_0_r. apply VN, Hk. }
  rewrite LV. apply bind_fdiv. split; [exact HN|]. apply ret_iff. split; [reflexivity|]. rewrite fold_Sigma, Rplus_0_l.
  rewrite (max_unique _ _ _ (max_attained r0 rs) MX), (min_unique _ _ _ (min_attained r0 rs) MN).
  rewrite (Sigma_nth vs (length time - p) (fun k => I * (nth (p + k) res 0 * sin (2 * PI * f * nth (p + k) time 0))) LV).
  - rewrite Rsum_scal. replace (I * Rsum (fun k : nat => nth (p + k) res 0 * sin (2 * PI * f * nth (p + k) time 0)) (length time - p) / INR (length time - p))
      with (I * (Rsum (fun k : nat => nth (p + k) res 0 * sin (2 * PI * f * nth (p + k) time 0)) (length time - p) / INR (length time - p))) by (unfold Rdiv; ring). reflexivity.
  - intros k Hk. rewrite VN, CN by exact Hk. ring.
Qed.

(** ** Spectrum *)
Lemma maxIt_half n : maxIt n = half_bins n.
Proof.
  unfold maxIt, half_bins. destruct (Nat.eqb_spec (n mod 2) 0) as [E|E]; [reflexivity|]. pose proof (Nat.mod_upper_bound n 2 ltac:(lia)). pose proof (Nat.div_mod n 2 ltac:(lia)).
  replace (n - 1)%nat with (2 * (n / 2))%nat by lia. rewrite Nat.mul_comm, Nat.div_mul by lia. reflexivity.
Qed.
Lemma frequency_iff nm : forall m i fs, (0 < i)%nat -> (frequency_loop nm i m = Ok fs <->
  length fs = m /\ forall k f, nth_error fs k = Some f -> nm <> 0 /\ f = INR (i - 1 + k) / nm).
Proof.
  induction m as [|m IH]; intros i fs Hi; cbn [frequency_loop].
  - split; [intros E; injection E as <-; split; [reflexivity|intros [|k] f X; discriminate]|]. intros [L _]. destruct fs; [reflexivity|discriminate].
  - unfold rbind. split.
    + destruct (fdiv (INR (i - 1)) nm) as [f0|e] eqn:EF; [|discriminate]. destruct (frequency_loop nm (S i) m) as [fs'|e] eqn:EL; [|discriminate]. intros E. injection E as <-.
      apply fdiv_inv in EF. destruct EF as [HN ->]. apply IH in EL; [|lia]. destruct EL as [L H]. split; [cbn; lia|]. intros [|k] f X; cbn in X.
      * injection X as <-. rewrite Nat.add_0_r. auto.
      * apply H in X. replace (S i - 1 + k)%nat with (i - 1 + S k)%nat in X by lia. exact X.
    + intros [L H]. destruct fs as [|f0 fs]; [discriminate|]. destruct (H 0%nat f0 eq_refl) as [HN E0]. rewrite Nat.add_0_r in E0.
      rewrite (fdiv_ok _ _ HN), <- E0. rewrite (proj2 (IH (S i) fs ltac:(lia))); [reflexivity|]. split; [cbn in L; lia|]. intros k f X.
      specialize (H (S k) f X). replace (S i - 1 + k)%nat with (i - 1 + S k)%nat by lia. exact H.
Qed.
Lemma axis_iff dt n fs : frequency_loop (dt * INR n) 1 (maxIt n) = Ok fs <-> frequency_axis dt n (half_bins n) fs.
Proof. rewrite frequency_iff by lia. rewrite maxIt_half. unfold frequency_axis. cbn [Nat.sub Nat.add]. reflexivity. Qed.
Lemma transform_dft xs k : (k < length xs)%nat -> nth_error (transform false (map (fun x => (x, 0)) xs)) k = Some (dft_re xs k, dft_im xs k).
Proof.
  intros Hk. unfold transform. rewrite nth_error_map. rewrite map_length, nth_error_seq0 by exact Hk. cbn [option_map]. rewrite fold_cadd. f_equal.
  assert (E : forall t, (t < length xs)%nat -> nth t (map (fun x : R => (x, 0)) xs) (0, 0) = (nth t xs 0, 0)).
  { intros t _. exact (map_nth (fun x : R => (x, 0)) xs 0 t). }
  unfold dft_re, dft_im. f_equal.
  - apply Rsum_ext. intros t Ht. rewrite E by exact Ht. cbn. ring.
  - rewrite <- Rsum_opp. apply Rsum_ext. intros t Ht. rewrite E by exact Ht. cbn. ring.
Qed.
Lemma transform_length inv xs : length (transform inv xs) = length xs.
Proof. unfold transform. rewrite map_length, seq_length. reflexivity. Qed.
Lemma fft_bin xs k : (k < length xs)%nat -> (k <= length xs / 2)%nat -> nth_error (fft_r2c xs) k = Some (dft_re xs k, dft_im xs k).
Proof.
  intros Hk H2. unfold fft_r2c. rewrite nth_error_app1 by (rewrite firstn_length, transform_length, map_length; lia).
  rewrite <- (transform_dft xs k Hk). assert (G : forall (l : list cplx) n i, (i < n)%nat -> nth_error (firstn n l) i = nth_error l i).
  { induction l as [|x l IH]; intros [|n] [|i] Hi; cbn; try lia; try reflexivity. apply IH. lia. } apply G. lia.
Qed.
Lemma half_cases n : (1 <= n)%nat -> (2 * half_bins n + 1 = n \/ 2 * half_bins n + 2 = n)%nat.
Proof. intros H. unfold half_bins. pose proof (Nat.div_mod (n - 1) 2 ltac:(lia)). pose proof (Nat.mod_upper_bound (n - 1) 2 ltac:(lia)). lia. Qed.
Lemma out_bins n : (1 <= n)%nat -> ((n + 1) / 2 = half_bins n + 1)%nat.
Proof. intros H. unfold half_bins. replace (n + 1)%nat with (n - 1 + 1 * 2)%nat by lia. rewrite Nat.div_add by lia. reflexivity. Qed.
Lemma angle_scaled x y t c : 0 < c -> (principal_angle (x / c) (y / c) t <-> principal_angle x y t).
Proof.
  intros Hc. split.
  - intros [(X & Y & ->)|(r & Hr & X & Y & B)].
    + left. assert (E : forall z, z / c = 0 -> z = 0) by (intros z Hz; replace z with (z / c * c) by (field; lra); rewrite Hz; ring). auto.
    + right. exists (r * c). split; [nra|]. assert (E : forall z w, z / c = r * w -> z = r * c * w) by (intros z w Hz; replace z with (z / c * c) by (field; lra); rewrite Hz; ring). auto.
  - intros [(-> & -> & ->)|(r & Hr & -> & -> & B)]; [left; unfold Rdiv; rewrite Rmult_0_l; auto|]. right. exists (r / c). split; [apply Rdiv_lt_0_compat; assumption|]. split; [field; lra|]. split; [field; lra|exact B].
Qed.
Lemma amplitude_scaled x y c : 0 < c -> sqrt ((x / c) ^ 2 + (y / c) ^ 2) = sqrt (x * x + y * y) / c.
Proof.
  intros Hc. apply sqrt_unique.
  - unfold Rdiv. apply Rmult_le_pos; [apply sqrt_pos|left; apply Rinv_0_lt_compat, Hc].
  - replace (sqrt (x * x + y * y) / c * (sqrt (x * x + y * y) / c)) with (sqrt (x * x + y * y) * sqrt (x * x + y * y) / (c * c)) by (field; lra). rewrite sqrt_sqrt by nra. field. lra.
Qed.
(** The value of bin k. *)
Definition bin_value (c : R) (xs : list R) (k : nat) : R * R :=
  (sqrt ((dft_re xs k / c) ^ 2 + (dft_im xs k / c) ^ 2), atan2 (dft_im xs k / c) (dft_re xs k / c)).
Lemma bins_value c xs : c <> 0 -> forall m i, (i + m <= length xs)%nat -> (i + m <= length xs / 2 + 1)%nat ->
  bins_loop c (fft_r2c xs) i m = Ok (map (bin_value c xs) (seq i m)).
Proof.
  intros Hc. induction m as [|m IH]; intros i H1 H2; [reflexivity|]. cbn [bins_loop seq map]. rewrite fft_bin by lia. cbn [fst snd]. rewrite !(fdiv_ok _ _ Hc). cbn [rbind].
  rewrite IH by lia. reflexivity.
Qed.
Lemma dft_zero xs : dft_re xs 0 = Sigma xs.
Proof. unfold dft_re, Sigma. apply Rsum_ext. intros t _. replace (2 * PI * INR 0 * INR t / INR (length xs)) with 0 by (cbn [INR]; unfold Rdiv; ring). rewrite cos_0. ring. Qed.
Lemma spectrum_values n m xs : (0 < n)%nat -> spectrum n (S m) xs (Sigma xs :: map fst (map (bin_value (INR n / 2) xs) (seq 1 m))) (0 :: map snd (map (bin_value (INR n / 2) xs) (seq 1 m))).
Proof.
  intros Hn. assert (Hc : 0 < INR n / 2) by (apply lt_0_INR in Hn; lra). unfold spectrum. cbn [length]. rewrite !map_length, seq_length.
  split; [reflexivity|]. split; [reflexivity|]. split; [reflexivity|]. split; [reflexivity|].
  intros [|i] a f Hi Ha Hf; [lia|]. cbn [nth_error] in Ha, Hf. rewrite !nth_error_map in Ha, Hf.
  destruct (nth_error (seq 1 m) i) as [k|] eqn:Ek; [|discriminate]. assert (k = S i).
  { assert (Hi' : (i < m)%nat) by (rewrite <- (seq_length m 1); apply nth_error_Some; congruence). apply (nth_error_nth _ _ 0%nat) in Ek. rewrite seq_nth in Ek by exact Hi'. lia. }
  subst k. cbn in Ha, Hf. injection Ha as <-. injection Hf as <-. split; [apply amplitude_scaled, Hc|]. apply (angle_scaled _ _ _ (INR n / 2) Hc). apply atan2_angle.
Qed.
(** The two columns of a tag. *)
Definition tag_columns (g : log_t) (n p : nat) (tag : string) : result (list R * list R) :=
  match log_get tag g with
  | None => Err (Throw ("FFT id tag was not found in the junction log: " ++ tag))
  | Some xs =>
      if Nat.ltb (length xs) p then Err Undefined
      else
        let cutMag := skipn p xs in
        if Nat.eqb (length cutMag) 0 then Err (Throw "Plan creation for fftw failed, cannot proceed")
        else
          let out := fft_r2c cutMag in
          let outBins := ((length cutMag + 1) / 2)%nat in
          bins <-- bins_loop (INR n / 2) out 1 (outBins - 1 - 1) ;;
          Ok (fst (nth 0 out (0, 0)) :: map fst bins, 0 :: map snd bins)
  end.
Lemma tags_step g n p tag rest acc : fft_tags g n p (tag :: rest) acc =
  match tag_columns g n p tag with
  | Err e => Err e
  | Ok c => fft_tags g n p rest (log_put (tag ++ "_phase") (snd c) (log_put (tag ++ "_amplitude") (fst c) acc))
  end.
Proof.
  cbn [fft_tags]. unfold tag_columns. destruct (log_get tag g) as [xs|]; [|reflexivity]. destruct (Nat.ltb (length xs) p); [reflexivity|]. cbv zeta.
  destruct (Nat.eqb (length (skipn p xs)) 0); [reflexivity|]. unfold rbind. destruct (bins_loop (INR n / 2) (fft_r2c (skipn p xs)) 1 ((length (skipn p xs) + 1) / 2 - 1 - 1)); reflexivity.
Qed.
Lemma columns_value g n p tag : (0 < n)%nat -> forall c, tag_columns g n p tag = Ok c <->
  exists xs, log_get tag g = Some xs /\ (p < length xs)%nat /\
    c = (Sigma (skipn p xs) :: map fst (map (bin_value (INR n / 2) (skipn p xs)) (seq 1 (half_bins (length xs - p) - 1))),
         0 :: map snd (map (bin_value (INR n / 2) (skipn p xs)) (seq 1 (half_bins (length xs - p) - 1)))).
Proof.
  intros Hn c. assert (Hc : INR n / 2 <> 0) by (apply lt_0_INR in Hn; lra). unfold tag_columns. destruct (log_get tag g) as [xs|]; [|split; [discriminate|intros (xs & X & _); discriminate]].
  destruct (Nat.ltb_spec (length xs) p) as [L|L]; [split; [discriminate|intros (ys & X & Y & _); injection X as <-; lia]|]. cbv zeta.
  destruct (Nat.eqb_spec (length (skipn p xs)) 0) as [Z|Z]; [split; [discriminate|intros (ys & X & Y & _); injection X as <-; rewrite skipn_length in Z; lia]|].
  assert (LS : length (skipn p xs) = (length xs - p)%nat) by apply skipn_length.
  rewrite out_bins by lia. rewrite LS. replace (half_bins (length xs - p) + 1 - 1 - 1)%nat with (half_bins (length xs - p) - 1)%nat by lia.
  pose proof (half_cases (length xs - p) ltac:(lia)) as HC.
  rewrite bins_value; [|exact Hc|rewrite LS; lia|].
  2: { rewrite LS. destruct (le_lt_dec (half_bins (length xs - p)) 1) as [A|A]; [replace (half_bins (length xs - p) - 1)%nat with 0%nat by lia; lia|].
       assert (half_bins (length xs - p) <= (length xs - p) / 2)%nat by (apply Nat.div_le_lower_bound; lia). lia. }
  cbn [rbind]. assert (E0 : nth 0 (fft_r2c (skipn p xs)) (0, 0) = (dft_re (skipn p xs) 0, dft_im (skipn p xs) 0)) by (apply nth_error_nth, fft_bin; [lia|apply Nat.le_0_l]).
  rewrite E0. cbn [fst]. rewrite dft_zero. split.
  - intros E. injection E as <-. exists xs. split; [reflexivity|]. split; [lia|reflexivity].
  - intros (ys & X & _ & ->). injection X as <-. reflexivity.
Qed.
Definition foreign (tags : list string) (key : string) : Prop := forall tag, In tag tags -> key <> (tag ++ "_amplitude")%string /\ key <> (tag ++ "_phase")%string.
Lemma tags_iff g n p : forall tags acc r, fft_tags g n p tags acc = Ok r ->
  (forall tag, In tag tags -> exists c, tag_columns g n p tag = Ok c /\ log_get (tag ++ "_amplitude") r = Some (fst c) /\ log_get (tag ++ "_phase") r = Some (snd c)) /\
  (forall key, foreign tags key -> log_get key r = log_get key acc).
Proof.
  induction tags as [|tag tags IH]; intros acc r H; [cbn in H; injection H as <-; split; [intros t []|reflexivity]|].
  rewrite tags_step in H. destruct (tag_columns g n p tag) as [c|e] eqn:EC; [|discriminate]. destruct (IH _ _ H) as [A B]. split.
  - intros t Ht. destruct (in_dec string_dec t tags) as [Hin|Hout]; [apply A, Hin|]. destruct Ht as [<-|Ht]; [|contradiction]. exists c. split; [exact EC|].
    destruct (keys_differ tag tag) as (D1 & _ & _).
    assert (F1 : foreign tags (tag ++ "_amplitude")%string) by (intros u Hu; split; [intros E; apply suffix_inj in E; subst; contradiction|apply keys_differ]).
    assert (F2 : foreign tags (tag ++ "_phase")%string) by (intros u Hu; split; [intros E; exact (proj1 (keys_differ u tag) (eq_sym E))|intros E; apply suffix_inj in E; subst; contradiction]).
    rewrite (B _ F1), (B _ F2). rewrite put_same. rewrite put_other by exact D1. rewrite put_same. auto.
  - intros key HF. rewrite B by (intros u Hu; apply HF; right; exact Hu). destruct (HF tag (or_introl eq_refl)) as [D1 D2]. rewrite put_other by exact D2. rewrite put_other by exact D1. reflexivity.
Qed.
Lemma tags_total g n p : forall tags acc, (forall tag, In tag tags -> exists c, tag_columns g n p tag = Ok c) -> exists r, fft_tags g n p tags acc = Ok r.
Proof.
  induction tags as [|tag tags IH]; intros acc H; [eexists; reflexivity|]. rewrite tags_step. destruct (H tag (or_introl eq_refl)) as [c ->]. apply IH. intros u Hu. apply H. right. exact Hu.
Qed.
Lemma half_max n : S (half_bins n - 1) = Nat.max 1 (half_bins n).
Proof. lia. Qed.
Lemma spectral_sound tags m dt g g' r : spectralFFT tags m dt g = (g', Ok r) -> g' = g /\ spectral_result g tags m dt r.
Proof.
  unfold spectralFFT. intros H. apply bind_iff in H. destruct H as (g1 & time & HT & H).
  destruct (nth_error time (length time - 1)) as [tl|] eqn:EL; [|discriminate]. destruct (Rle_dec tl m) as [X|X]; [discriminate|].
  assert (HT' : g1 = g /\ log_get "time" g = Some time).
  { unfold log_at in HT. destruct (log_get "time" g) as [c|] eqn:E; [injection HT as <- <-; auto|]. exfalso. injection HT as _ <-. discriminate. }
  destruct HT' as [-> HT']. cbv zeta in H. set (p := threshold m time) in *. assert (F : first_at m time p) by (apply threshold_iff; reflexivity).
  apply bind_value in H. destruct H as (fs & HF & H). rewrite get_bind in H. unfold lift in H. injection H as <- H. split; [reflexivity|].
  assert (NP : (p < length time)%nat).
  { destruct F as (F1 & F2 & F3). destruct (Nat.eq_dec p (length time)) as [E|E]; [|lia]. exfalso. assert (L : (length time - 1 < length time)%nat) by (apply nth_error_Some; congruence).
    assert (tl < m) by (apply (F2 (length time - 1)%nat); [lia|exact EL]). lra. }
  apply axis_iff in HF. destruct (tags_iff _ _ _ _ _ _ H) as [A B].
  exists time, p, fs. split; [exact HT'|]. split; [exact F|]. split; [exists tl; split; [exact EL|lra]|]. cbv zeta. split; [exact HF|]. split; [|split].
  - rewrite B by (intros u _; split; apply not_eq_sym, keys_differ; exact u). reflexivity.
  - intros tag Hin. destruct (A tag Hin) as (c & HC & G1 & G2). apply columns_value in HC; [|lia]. destruct HC as (xs & HX & Hp & ->). cbn [fst snd] in G1, G2.
    exists xs. do 2 eexists. split; [exact HX|]. split; [exact Hp|]. split; [exact G1|]. split; [exact G2|]. rewrite <- half_max. apply spectrum_values. lia.
  - intros key HK HN. rewrite B by exact HN. cbn [log_get]. destruct (String.eqb_spec "frequencies" key); [congruence|reflexivity].
Qed.
Lemma spectral_complete tags m dt g time p t : log_get "time" g = Some time -> first_at m time p ->
  nth_error time (length time - 1) = Some t -> m < t -> (dt <> 0 \/ (length time <= p + 2)%nat) ->
  (forall tag, In tag tags -> exists xs, log_get tag g = Some xs /\ (p < length xs)%nat) ->
  exists r, spectralFFT tags m dt g = (g, Ok r).
Proof.
  intros HT F EL Hm Hd HX. pose proof (proj2 (threshold_iff _ _ _) F) as TP.
  assert (NP : (p < length time)%nat).
  { destruct F as (F1 & F2 & F3). destruct (Nat.eq_dec p (length time)) as [E|E]; [|lia]. exfalso. assert (L : (length time - 1 < length time)%nat) by (apply nth_error_Some; congruence).
    assert (t < m) by (apply (F2 (length time - 1)%nat); [lia|exact EL]). lra. }
  destruct (tags_total g (length time - p) p tags [("frequencies"%string, map (fun i => INR i / (dt * INR (length time - p))) (seq 0 (half_bins (length time - p))))]) as [r Hr].
  { intros tag Hin. destruct (HX tag Hin) as (xs & E & L). eexists. apply columns_value; [lia|]. exists xs. split; [exact E|]. split; [exact L|reflexivity]. }
  exists r. unfold spectralFFT. apply bind_iff. exists g, time. split; [unfold log_at; rewrite HT; reflexivity|]. rewrite EL. destruct (Rle_dec t m) as [Y|_]; [lra|]. cbv zeta. rewrite TP.
  apply bind_value. eexists. split; [apply axis_iff; shelve|]. rewrite get_bind. unfold lift. rewrite Hr. reflexivity.
  Unshelve. split; [rewrite map_length, seq_length; reflexivity|]. intros i f Hf. rewrite nth_error_map in Hf. destruct (nth_error (seq 0 (half_bins (length time - p))) i) as [k|] eqn:Ek; [|discriminate].
  assert (Hi : (i < half_bins (length time - p))%nat) by (rewrite <- (seq_length (half_bins (length time - p)) 0); apply nth_error_Some; congruence).
  rewrite nth_error_seq0 in Ek by exact Hi. injection Ek as <-. cbn in Hf. injection Hf as <-. split; [|reflexivity].
  destruct Hd as [Hd|Hd]; [apply Rmult_integral_contrapositive_currified; [exact Hd|apply not_0_INR; lia]|]. exfalso. pose proof (half_cases (length time - p) ltac:(lia)). lia.
Qed.
