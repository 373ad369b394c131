(** Proofs about the resistance helpers. *)
From Verif Require Export S_Resist.
From Verif Require Import P_Vec P_Sym P_Geom.
From Verif Require P_Run.
From Coq Require Import Psatz FunctionalExtensionality.
Open Scope R_scope.
Open Scope st_scope.

Lemma at_iff {A} (l : list A) i a : at_ l i = Ok a <-> nth_error l i = Some a.
Proof. unfold at_. destruct (nth_error l i); split; congruence. Qed.
Lemma row_iff {A} (l : list A) i a : row_ l i = Ok a <-> nth_error l i = Some a.
Proof. unfold row_. destruct (nth_error l i); split; congruence. Qed.
Lemma py_div_iff a b q : py_div a b = Ok q <-> b <> 0 /\ q * b = a.
Proof.
  unfold py_div. destruct (Req_EM_T b 0) as [E|E]; split.
  - discriminate.
  - intros [X _]. contradiction.
  - intros H. injection H as <-. split; [exact E|field; exact E].
  - intros [_ <-]. f_equal. field. exact E.
Qed.
Lemma rbind_iff {A B} (r : result A) (f : A -> result B) b : rbind r f = Ok b <-> exists a, r = Ok a /\ f a = Ok b.
Proof. destruct r; cbn; split; [intros H; eauto|intros (x & E & H); injection E as <-; exact H|discriminate|intros (x & E & H); discriminate]. Qed.

Lemma res_row_iff {M} p (ms : list M) i rx0 ry0 amr ahe smr q m : res_row p ms i = Ok (rx0, ry0, amr, ahe, smr, q, m) <->
  film p i rx0 ry0 amr ahe smr q /\ nth_error ms i = Some m.
Proof.
  unfold res_row, film. repeat setoid_rewrite rbind_iff. repeat setoid_rewrite at_iff. setoid_rewrite row_iff. setoid_rewrite py_div_iff. split.
  - intros (w & W & l & L & r & [N Q] & a & A & b & B & c & C & d & D & e & E & f & F & H). injection H as -> -> -> -> -> -> ->. repeat split; auto. exists l, w. auto.
  - intros ((H1 & H2 & H3 & H4 & H5 & l & w & L & W & N & Q) & K). exists w. split; [exact W|]. exists l. split; [exact L|]. exists q. split; [split; assumption|].
    exists rx0. split; [exact H1|]. exists amr. split; [exact H3|]. exists m. split; [exact K|]. exists smr. split; [exact H5|]. exists ry0. split; [exact H2|]. exists ahe. split; [exact H4|reflexivity].
Qed.
Lemma res_rows_iff {A M} (f : R * R * R * R * R * R * M -> A) p (ms : list M) n : forall i rs, res_rows f p ms n i = Ok rs <->
  length rs = n /\ forall k, (k < n)%nat -> exists x, res_row p ms (i + k) = Ok x /\ nth_error rs k = Some (f x).
Proof.
  induction n as [|n IH]; intros i rs; cbn [res_rows].
  - split.
    + intros H. injection H as <-. split; [reflexivity|]. intros k L. lia.
    + intros [L _]. destruct rs; [reflexivity|discriminate].
  - rewrite rbind_iff. split.
    + intros (x & X & H). apply rbind_iff in H. destruct H as (rs' & HR & H). injection H as <-. apply IH in HR. destruct HR as [L HR]. split; [cbn; lia|]. intros [|k] Lk.
      * exists x. rewrite Nat.add_0_r. split; [exact X|reflexivity].
      * destruct (HR k ltac:(lia)) as (y & Y & E). exists y. rewrite Nat.add_succ_r. split; [exact Y|exact E].
    + intros [L HR]. destruct rs as [|r rs]; [discriminate|]. destruct (HR 0%nat ltac:(lia)) as (x & X & E). rewrite Nat.add_0_r in X. cbn in E. injection E as ->. exists x. split; [exact X|]. apply rbind_iff. exists rs. split; [|reflexivity]. apply IH. split; [cbn in L; lia|].
      intros k Lk. destruct (HR (S k) ltac:(lia)) as (y & Y & E). exists y. rewrite Nat.add_succ_r in Y. split; [exact Y|exact E].
Qed.
Lemma res_x_long rx0 amr smr m : res_x rx0 amr smr m = longitudinal rx0 amr smr m.
Proof. destruct m as [m1 m2 m3]. unfold res_x, longitudinal, Dot, ex, ey. cbn [cx cy cz]. ring. Qed.
Lemma res_y_trans ry0 amr ahe smr q m : res_y ry0 amr ahe smr q m = transverse ry0 amr ahe smr q m.
Proof. destruct m as [m1 m2 m3]. unfold res_y, transverse, Dot, ex, ey, ez. cbn [cx cy cz]. field. Qed.

Lemma resistance_iff p m rx ry : compute_resistance p m = Ok (rx, ry) <-> layers_of p m rx ry.
Proof.
  unfold compute_resistance. rewrite rbind_iff. split.
  - intros (rs & HR & H). injection H as <- <-. apply res_rows_iff in HR. destruct HR as [L HR]. split; [rewrite map_length; exact L|]. split; [rewrite map_length; exact L|]. intros i Li. destruct (HR i Li) as ([[[[[[rx0 ry0] amr] ahe] smr] q] mi] & X & E). apply res_row_iff in X. destruct X as [F M].
    exists rx0, ry0, amr, ahe, smr, q, mi. split; [exact F|]. split; [exact M|]. split; erewrite map_nth_error by exact E; cbn; [rewrite res_x_long|rewrite res_y_trans]; reflexivity.
  - intros (L1 & L2 & H). exists (combine rx ry). split.
    + apply res_rows_iff. split; [rewrite combine_length; lia|]. intros k Lk. destruct (H k Lk) as (rx0 & ry0 & amr & ahe & smr & q & mi & F & M & X & Y). exists (rx0, ry0, amr, ahe, smr, q, mi). split; [apply res_row_iff; auto|]. cbn.
      rewrite res_x_long, res_y_trans. revert X Y. clear. revert ry k. induction rx as [|a rx IH]; intros [|b ry] [|k] X Y; cbn in *; try discriminate; [congruence|]. apply IH; assumption.
    + assert (L : length rx = length ry) by congruence. clear -L. revert ry L. induction rx as [|a rx IH]; intros [|b ry] L; try discriminate; [reflexivity|]. cbn. injection L as L. specialize (IH ry L). injection IH as E1 E2. rewrite E1, E2. reflexivity.
Qed.

(** ** Sums *)
Lemma sum_total l : sum_list l = total (fun r => r) l.
Proof. induction l as [|a l IH]; cbn; [reflexivity|]. change (fold_right Rplus 0 l) with (sum_list l). rewrite IH. reflexivity. Qed.
Lemma np_sum_inv l : np_sum (map (fun s => np_inv (Fin s)) l) = if in_dec Req_EM_T 0 l then Infinite else Fin (total Rinv l).
Proof.
  induction l as [|a l IH]; [reflexivity|]. cbn [map np_sum fold_right]. change (fold_right np_add (Fin 0) (map (fun s => np_inv (Fin s)) l)) with (np_sum (map (fun s => np_inv (Fin s)) l)). rewrite IH. cbn [np_inv].
  destruct (in_dec Req_EM_T 0 (a :: l)) as [I|NI].
  - destruct (Req_EM_T a 0) as [E|E]; [reflexivity|]. destruct (in_dec Req_EM_T 0 l) as [J|J]; [reflexivity|]. destruct I; [congruence|contradiction].
  - destruct (Req_EM_T a 0) as [E|E]; [exfalso; apply NI; left; exact E|]. destruct (in_dec Req_EM_T 0 l) as [J|J]; [exfalso; apply NI; right; exact J|]. cbn. unfold Rdiv. rewrite Rmult_1_l. reflexivity.
Qed.
Lemma par_iff l x : par_sum l = x <-> in_parallel l x.
Proof.
  unfold par_sum, in_parallel. rewrite np_sum_inv. destruct (in_dec Req_EM_T 0 l) as [I|I]; cbn.
  - split; [intros <-; left; auto|]. intros [[_ ->]|[[N _]|[N _]]]; [reflexivity|contradiction|contradiction].
  - destruct (Req_EM_T (total Rinv l) 0) as [E|E]; split.
    + intros <-. right. right. auto.
    + intros [[X _]|[(_ & r & H & _)|(_ & _ & ->)]]; [contradiction|rewrite E in H; lra|reflexivity].
    + intros <-. right. left. split; [exact I|]. exists (1 / total Rinv l). split; [field; exact E|reflexivity].
    + intros [[X _]|[(_ & r & H & ->)|(_ & X & _)]]; [contradiction| |contradiction]. f_equal. replace (1 / total Rinv l) with (total Rinv l * r * / total Rinv l) by (rewrite H; reflexivity). field. exact E.
Qed.
Lemma parallel_iff p m x y : calculate_resistance_parallel p m = Ok (x, y) <->
  exists rx ry, layers_of p m rx ry /\ in_parallel rx x /\ in_parallel ry y.
Proof.
  unfold calculate_resistance_parallel. rewrite rbind_iff. split.
  - intros ([rx ry] & H & E). injection E as <- <-. exists rx, ry. split; [apply resistance_iff; exact H|]. split; apply par_iff; reflexivity.
  - intros (rx & ry & H & X & Y). exists (rx, ry). split; [apply resistance_iff; exact H|]. apply par_iff in X. apply par_iff in Y. cbn. rewrite X, Y. reflexivity.
Qed.
Lemma series_iff p m x y : calculate_resistance_series p m = Ok (x, y) <->
  exists rx ry, layers_of p m rx ry /\ x = total (fun r => r) rx /\ y = total (fun r => r) ry.
Proof.
  unfold calculate_resistance_series. rewrite rbind_iff. split.
  - intros ([rx ry] & H & E). injection E as <- <-. exists rx, ry. split; [apply resistance_iff; exact H|]. split; apply sum_total.
  - intros (rx & ry & H & -> & ->). exists (rx, ry). split; [apply resistance_iff; exact H|]. cbn. rewrite !sum_total. reflexivity.
Qed.
Lemma layers_det p m rx ry rx' ry' : layers_of p m rx ry -> layers_of p m rx' ry' -> rx = rx' /\ ry = ry'.
Proof. intros H K. apply resistance_iff in H. apply resistance_iff in K. rewrite H in K. injection K as <- <-. auto. Qed.

Lemma total_pos f l : Forall (fun r => 0 < f r) l -> 0 <= total f l /\ Forall (fun r => f r <= total f l) l.
Proof.
  induction 1 as [|r l H F IH]; cbn; [split; [lra|constructor]|]. fold (total f l). destruct IH as [IH1 IH2]. split; [lra|]. constructor; [lra|]. eapply Forall_impl; [|exact IH2]. cbn. intros s L. lra.
Qed.
Lemma parallel_series_bounds l x : Forall (Rlt 0) l -> l <> [] -> in_parallel l x ->
  exists r, x = Fin r /\ 0 < r /\ Forall (fun s => r <= s /\ s <= total (fun r => r) l) l.
Proof.
  intros F N [[I _]|[(_ & r & H & ->)|(_ & Z & _)]].
  - rewrite Forall_forall in F. specialize (F 0 I). lra.
  - exists r. split; [reflexivity|]. assert (FI : Forall (fun s => 0 < / s) l) by (eapply Forall_impl; [|exact F]; intros s L; apply Rinv_0_lt_compat; exact L).
    destruct (total_pos Rinv l FI) as [A B]. destruct (total_pos (fun r => r) l F) as [C D]. assert (P : 0 < r). { destruct (Rlt_dec 0 r) as [X|X]; [exact X|]. assert (total Rinv l * r <= 0) by nra. lra. }
    split; [exact P|]. rewrite Forall_forall in *. intros s I. specialize (F s I). specialize (B s I). specialize (D s I). cbn in B, D. split; [|exact D].
    assert (X : / s * s = 1) by (field; lra). assert (0 < / s) by (apply Rinv_0_lt_compat; exact F). assert (/ s * r <= 1) by nra. nra.
  - destruct l as [|a l]; [congruence|]. inversion F; subst. cbn in Z. fold (total Rinv l) in Z. assert (FI : Forall (fun s => 0 < / s) l) by (eapply Forall_impl; [|eassumption]; intros s L; apply Rinv_0_lt_compat; exact L).
    destruct (total_pos Rinv l FI) as [X _]. assert (0 < / a) by (apply Rinv_0_lt_compat; assumption). lra.
Qed.

(** ** Time series *)
Lemma sample_nth t m mt i row : sample t m mt -> nth_error m i = Some row -> exists mi, nth_error mt i = Some mi /\ nth_error row t = Some mi.
Proof.
  intros S. revert i. induction S as [|a b m mt E S IH]; intros [|i] H; cbn in *; try discriminate; [injection H as ->; eauto|apply IH; exact H].
Qed.
Lemma column_eq {A} (d : A) T rows t : (t < T)%nat -> nth_error (columns d T rows) t = Some (map (fun r => nth t r d) rows).
Proof. intros L. unfold columns. erewrite map_nth_error; [reflexivity|]. assert (E : nth_error (seq 0 T) t = Some (nth t (seq 0 T) 0%nat)) by (apply nth_error_nth'; rewrite seq_length; exact L). rewrite E, seq_nth by exact L. reflexivity. Qed.
Lemma res_rows_sample p m mt t n : sample t m mt -> forall i rs,
  res_rows (fun '(rx0, ry0, amr, ahe, smr, w_l, ms) => (map (res_x rx0 amr smr) ms, map (res_y ry0 amr ahe smr w_l) ms)) p m n i = Ok rs ->
  res_rows (fun '(rx0, ry0, amr, ahe, smr, w_l, m) => (res_x rx0 amr smr m, res_y ry0 amr ahe smr w_l m)) p mt n i = Ok (map (fun r => (nth t (fst r) 0, nth t (snd r) 0)) rs).
Proof.
  intros S i rs H. apply res_rows_iff in H. destruct H as [L H]. apply res_rows_iff. split; [rewrite map_length; exact L|]. intros k Lk. destruct (H k Lk) as ([[[[[[rx0 ry0] amr] ahe] smr] q] ms] & X & E). apply res_row_iff in X. destruct X as [F M].
  destruct (sample_nth _ _ _ _ _ S M) as (mi & Mi & R). exists (rx0, ry0, amr, ahe, smr, q, mi). split; [apply res_row_iff; auto|]. erewrite map_nth_error by exact E. cbn. f_equal. f_equal.
  - apply nth_error_nth. rewrite (map_nth_error _ _ _ R). reflexivity.
  - apply nth_error_nth. rewrite (map_nth_error _ _ _ R). reflexivity.
Qed.
Lemma resistance3_sample p m mt t rx ry : sample t m mt -> compute_resistance3 p m = Ok (rx, ry) ->
  compute_resistance p mt = Ok (map (fun r => nth t r 0) rx, map (fun r => nth t r 0) ry).
Proof.
  intros S H. unfold compute_resistance3 in H. apply rbind_iff in H. destruct H as (rs & H & E). injection E as <- <-. apply (res_rows_sample _ _ _ _ _ S) in H. unfold compute_resistance. rewrite H. cbn. rewrite !map_map. reflexivity.
Qed.
Lemma series3_sample p T m mt t xs ys : sample t m mt -> (t < T)%nat -> calculate_resistance_series3 p T m = Ok (xs, ys) ->
  length xs = T /\ length ys = T /\ exists x y, nth_error xs t = Some x /\ nth_error ys t = Some y /\ calculate_resistance_series p mt = Ok (x, y).
Proof.
  intros S L H. unfold calculate_resistance_series3 in H. apply rbind_iff in H. destruct H as ([rx ry] & H & E). injection E as <- <-. apply (resistance3_sample _ _ _ _ _ _ S) in H.
  split; [unfold columns; rewrite !map_length, seq_length; reflexivity|]. split; [unfold columns; rewrite !map_length, seq_length; reflexivity|]. do 2 eexists. split; [apply map_nth_error, column_eq; exact L|]. split; [apply map_nth_error, column_eq; exact L|]. unfold calculate_resistance_series. rewrite H. reflexivity.
Qed.
Lemma parallel3_sample p T m mt t xs ys : sample t m mt -> (t < T)%nat -> calculate_resistance_parallel3 p T m = Ok (xs, ys) ->
  length xs = T /\ length ys = T /\ exists x y, nth_error xs t = Some x /\ nth_error ys t = Some y /\ calculate_resistance_parallel p mt = Ok (x, y).
Proof.
  intros S L H. unfold calculate_resistance_parallel3 in H. apply rbind_iff in H. destruct H as ([rx ry] & H & E). injection E as <- <-. apply (resistance3_sample _ _ _ _ _ _ S) in H.
  split; [unfold columns; rewrite !map_length, seq_length; reflexivity|]. split; [unfold columns; rewrite !map_length, seq_length; reflexivity|]. do 2 eexists. split; [apply map_nth_error, column_eq; exact L|]. split; [apply map_nth_error, column_eq; exact L|]. unfold calculate_resistance_parallel. rewrite H. reflexivity.
Qed.
Lemma res_rows_total {A B M N} (f : R * R * R * R * R * R * M -> A) (g : R * R * R * R * R * R * N -> B) p (ms : list M) (ns : list N) n :
  length ms = length ns -> forall i rs, res_rows f p ms n i = Ok rs -> exists rs', res_rows g p ns n i = Ok rs'.
Proof.
  intros EL. induction n as [|n IH]; intros i rs H; cbn in *; [eauto|]. apply rbind_iff in H. destruct H as ([[[[[[rx0 ry0] amr] ahe] smr] q] m] & X & H). apply rbind_iff in H. destruct H as (rs' & HR & _). destruct (IH _ _ HR) as [rs2 HR2].
  apply res_row_iff in X. destruct X as [F Mi]. assert (Li : (i < length ns)%nat) by (rewrite <- EL; apply nth_error_Some; congruence). destruct (nth_error ns i) as [k|] eqn:E; [|apply nth_error_None in E; lia].
  assert (X : res_row p ns i = Ok (rx0, ry0, amr, ahe, smr, q, k)) by (apply res_row_iff; auto). rewrite X. cbn. rewrite HR2. cbn. eauto.
Qed.
Lemma series3_total p T m mt r : length m = length mt -> calculate_resistance_series p mt = Ok r -> exists xs, calculate_resistance_series3 p T m = Ok xs.
Proof.
  intros EL H. unfold calculate_resistance_series in H. apply rbind_iff in H. destruct H as (s & H & _). unfold compute_resistance in H. apply rbind_iff in H. destruct H as (rs & H & _).
  eapply (res_rows_total _ (fun '(rx0, ry0, amr, ahe, smr, w_l, ms) => (map (res_x rx0 amr smr) ms, map (res_y ry0 amr ahe smr w_l) ms)) p mt m) in H; [|symmetry; exact EL]. destruct H as [rs' H]. unfold calculate_resistance_series3, compute_resistance3. rewrite H. cbn. eauto.
Qed.
Lemma parallel3_total p T m mt r : length m = length mt -> calculate_resistance_parallel p mt = Ok r -> exists xs, calculate_resistance_parallel3 p T m = Ok xs.
Proof.
  intros EL H. unfold calculate_resistance_parallel in H. apply rbind_iff in H. destruct H as (s & H & _). unfold compute_resistance in H. apply rbind_iff in H. destruct H as (rs & H & _).
  eapply (res_rows_total _ (fun '(rx0, ry0, amr, ahe, smr, w_l, ms) => (map (res_x rx0 amr smr) ms, map (res_y ry0 amr ahe smr w_l) ms)) p mt m) in H; [|symmetry; exact EL]. destruct H as [rs' H]. unfold calculate_resistance_parallel3, compute_resistance3. rewrite H. cbn. eauto.
Qed.

(** ** GMR *)
Lemma gmr_dot Rp Rap a b : compute_gmr Rp Rap a b = Rp + (Rap - Rp) * (1 - Dot a b) / 2.
Proof. destruct a as [a1 a2 a3], b as [b1 b2 b3]. unfold compute_gmr, Dot. cbn [cx cy cz]. field. Qed.
Lemma mr_iff Rp Rap m x : calculate_magnetoresistance Rp Rap m = Ok x <-> exists a b, m = [a; b] /\ x = Rp + (Rap - Rp) * Dot a b / 2.
Proof.
  split.
  - destruct m as [|a [|b [|c m]]]; try discriminate. cbn [calculate_magnetoresistance]. intros H. injection H as <-. exists a, b. split; [reflexivity|]. destruct a as [a1 a2 a3], b as [b1 b2 b3]. unfold Dot. cbn [cx cy cz]. field.
  - intros (a & b & -> & ->). cbn [calculate_magnetoresistance]. f_equal. destruct a as [a1 a2 a3], b as [b1 b2 b3]. unfold Dot. cbn [cx cy cz]. field.
Qed.
Lemma dot_unit a b : Unit a -> Unit b -> -1 <= Dot a b <= 1 /\ (Dot a b = 1 <-> a = b) /\ (Dot a b = -1 <-> a = Scal (-1) b).
Proof.
  destruct a as [a1 a2 a3], b as [b1 b2 b3]. unfold Unit, Norm2, Dot, Scal. intros A B.
  assert (P : 0 <= (a1 - b1) ^ 2 + (a2 - b2) ^ 2 + (a3 - b3) ^ 2) by (pose proof (pow2_ge_0 (a1 - b1)); pose proof (pow2_ge_0 (a2 - b2)); pose proof (pow2_ge_0 (a3 - b3)); lra).
  assert (Q : 0 <= (a1 + b1) ^ 2 + (a2 + b2) ^ 2 + (a3 + b3) ^ 2) by (pose proof (pow2_ge_0 (a1 + b1)); pose proof (pow2_ge_0 (a2 + b2)); pose proof (pow2_ge_0 (a3 + b3)); lra).
  assert (Z : forall x y z, x ^ 2 + y ^ 2 + z ^ 2 = 0 -> x = 0 /\ y = 0 /\ z = 0).
  { intros x y z E. pose proof (pow2_ge_0 x). pose proof (pow2_ge_0 y). pose proof (pow2_ge_0 z). repeat split; apply Rsqr_0_uniq; unfold Rsqr; nra. }
  split; [nra|]. split; split; intros E.
  - destruct (Z (a1 - b1) (a2 - b2) (a3 - b3) ltac:(nra)) as (X & Y & W). f_equal; lra.
  - injection E as -> -> ->. exact B.
  - destruct (Z (a1 + b1) (a2 + b2) (a3 + b3) ltac:(nra)) as (X & Y & W). f_equal; lra.
  - injection E as -> -> ->. nra.
Qed.

(** ** Linearised resistance *)
Lemma unpack_iff l a b c d : unpack4 l = Ok (a, b, c, d) <-> l = [a; b; c; d].
Proof. destruct l as [|x [|y [|z [|w [|v l]]]]]; cbn; split; congruence. Qed.
Definition lin1 (a0 s0 : R) : sexpr := EAdd (EMul (ENum a0) (ESq (sx lin_m1))) (EMul (ENum s0) (ESq (sy lin_m1))).
Definition lin2 (a1 s1 : R) : sexpr := EAdd (EMul (ENum a1) (ESq (sx lin_m2))) (EMul (ENum s1) (ESq (sy lin_m2))).
Definition ling (GMR : R) : sexpr := EDiv (EMul (ENum GMR) (ESub (ENum 1) (sdot lin_m1 lin_m2))) (ENum 2).
Lemma lin_iff GMR AMR SMR e1 e2 g : calculate_linearised_resistance GMR AMR SMR = Ok (e1, e2, g) <->
  exists a0 s0 a1 s1, nth_error AMR 0 = Some a0 /\ nth_error SMR 0 = Some s0 /\ nth_error AMR 1 = Some a1 /\ nth_error SMR 1 = Some s1 /\ e1 = lin1 a0 s0 /\ e2 = lin2 a1 s1 /\ g = ling GMR.
Proof.
  unfold calculate_linearised_resistance. repeat setoid_rewrite rbind_iff. repeat setoid_rewrite at_iff. split.
  - intros (a0 & A0 & s0 & S0 & a1 & A1 & s1 & S1 & H). injection H as <- <- <-. exists a0, s0, a1, s1. repeat split; auto.
  - intros (a0 & s0 & a1 & s1 & A0 & S0 & A1 & S1 & -> & -> & ->). exists a0. split; [exact A0|]. exists s0. split; [exact S0|]. exists a1. split; [exact A1|]. exists s1. split; [exact S1|]. reflexivity.
Qed.
Lemma eval_lin1 a s rho : eval rho (lin1 a s) = first_part a s rho.
Proof. unfold lin1, lin_m1, ESq, first_part, film_part, point, Dot, ex, ey. cbn [sx sy sz eval]. ring. Qed.
Lemma eval_lin2 a s rho : eval rho (lin2 a s) = second_part a s rho.
Proof. unfold lin2, lin_m2, ESq, ENeg, second_part, film_part, point, Dot, ex, ey. cbn [sx sy sz eval]. ring. Qed.
Lemma eval_ling g rho : eval rho (ling g) = gmr_part g rho.
Proof. unfold ling, lin_m1, lin_m2, EDiv, ESub, ENeg, sdot, gmr_part, point, mirror, Dot. cbn [sx sy sz eval cx cy cz]. field. Qed.
Lemma lin_defined a s b u g rho : defined rho (lin1 a s) /\ defined rho (lin2 b u) /\ defined rho (ling g).
Proof. unfold lin1, lin2, ling, lin_m1, lin_m2, ESq, ENeg, EDiv, ESub, ENeg, sdot. cbn. repeat split. lra. Qed.
Definition dir4 (a b c d : R) : symbol -> R := angles4 a b c d.
Lemma linearise_slope e rho a b c d : defined rho e -> eval rho (linearise e a b c d) = slope rho (angles4 a b c d) e.
Proof.
  intros D. rewrite (slope_over [Theta 1; Phi 1; Theta 2; Phi 2]); [cbn; ring| |exact D|].
  - repeat constructor; cbn; intuition discriminate.
  - intros s N. destruct s as [[|[|[|i]]]|[|[|[|i]]]| | | | | | | |]; cbn in *; try reflexivity; exfalso; apply N; auto 6.
Qed.
Lemma linearise_defined e rho a b c d : defined rho e -> defined rho (linearise e a b c d).
Proof. intros D. unfold linearise. cbn. repeat split; apply defined_diff; exact D. Qed.
Lemma linearise_defined_inv e rho a b c d : defined rho (linearise e a b c d) -> forall s, In s [Theta 1; Phi 1; Theta 2; Phi 2] -> defined rho (diff e s).
Proof. unfold linearise. cbn. intros H s [<-|[<-|[<-|[<-|[]]]]]; tauto. Qed.

Lemma lin_value e rho f a b c d dR R0 : (forall r, eval r e = f r) -> defined rho e ->
  (dR <-- evalf rho (linearise e a b c d) ;; R0 <-- evalf rho e ;; Ok (dR, R0)) = Ok (dR, R0) <->
  R0 = f rho /\ along f rho (angles4 a b c d) dR.
Proof.
  intros EF D.
  assert (AL : along f rho (angles4 a b c d) (slope rho (angles4 a b c d) e)).
  { unfold along. eapply lim_ext; [|apply (slope_lim e); exact D]. intros t. apply EF. }
  assert (E1 : evalf rho (linearise e a b c d) = Ok (slope rho (angles4 a b c d) e)) by (apply evalf_iff; split; [apply linearise_defined; exact D|symmetry; apply linearise_slope; exact D]).
  assert (E2 : evalf rho e = Ok (f rho)) by (apply evalf_iff; split; [exact D|symmetry; apply EF]).
  rewrite E1, E2. cbn [rbind]. split.
  - intros H. injection H as <- <-. auto.
  - intros [-> H]. rewrite (along_det _ _ _ _ _ AL H). reflexivity.
Qed.
Lemma lin_series_iff GMR AMR SMR st ln dR R0 : calculate_linearised_resistance_series GMR AMR SMR st ln = Ok (dR, R0) <->
  exists t1 p1 t2 p2 dt1 dp1 dt2 dp2 a0 s0 a1 s1, st = [t1; p1; t2; p2] /\ ln = [dt1; dp1; dt2; dp2] /\
    nth_error AMR 0 = Some a0 /\ nth_error SMR 0 = Some s0 /\ nth_error AMR 1 = Some a1 /\ nth_error SMR 1 = Some s1 /\
    let f := fun rho => gmr_part GMR rho + first_part a0 s0 rho + second_part a1 s1 rho in
    R0 = f (angles4 t1 p1 t2 p2) /\ along f (angles4 t1 p1 t2 p2) (angles4 dt1 dp1 dt2 dp2) dR.
Proof.
  assert (K : forall a0 s0 a1 s1 rho a b c d, (dR <-- evalf rho (linearise (EAdd (EAdd (ling GMR) (lin1 a0 s0)) (lin2 a1 s1)) a b c d) ;; R0 <-- evalf rho (EAdd (EAdd (ling GMR) (lin1 a0 s0)) (lin2 a1 s1)) ;; Ok (dR, R0)) = Ok (dR, R0) <->
    R0 = gmr_part GMR rho + first_part a0 s0 rho + second_part a1 s1 rho /\ along (fun rho => gmr_part GMR rho + first_part a0 s0 rho + second_part a1 s1 rho) rho (angles4 a b c d) dR).
  { intros a0 s0 a1 s1 rho a b c d. destruct (lin_defined a0 s0 a1 s1 GMR rho) as (D1 & D2 & D3). apply (lin_value _ _ (fun rho => gmr_part GMR rho + first_part a0 s0 rho + second_part a1 s1 rho)); [intros r; cbn [eval]; rewrite eval_ling, eval_lin1, eval_lin2; reflexivity|cbn; auto]. }
  unfold calculate_linearised_resistance_series. rewrite rbind_iff. split.
  - intros ([[[t1 p1] t2] p2] & U & H). apply unpack_iff in U. apply rbind_iff in H. destruct H as ([[[dt1 dp1] dt2] dp2] & V & H). apply unpack_iff in V. apply rbind_iff in H. destruct H as ([[e1 e2] g] & L & H). apply lin_iff in L. destruct L as (a0 & s0 & a1 & s1 & A0 & S0 & A1 & S1 & -> & -> & ->).
    apply K in H. exists t1, p1, t2, p2, dt1, dp1, dt2, dp2, a0, s0, a1, s1. repeat split; auto; apply H.
  - intros (t1 & p1 & t2 & p2 & dt1 & dp1 & dt2 & dp2 & a0 & s0 & a1 & s1 & -> & -> & A0 & S0 & A1 & S1 & H). exists (t1, p1, t2, p2). split; [reflexivity|]. apply rbind_iff. exists (dt1, dp1, dt2, dp2). split; [reflexivity|]. apply rbind_iff. exists (lin1 a0 s0, lin2 a1 s1, ling GMR). split; [apply lin_iff; exists a0, s0, a1, s1; auto 10|]. apply K. exact H.
Qed.
Lemma any_iff l : py_any l = true <-> exists x, In x l /\ x <> 0.
Proof. unfold py_any. rewrite existsb_exists. split; intros (x & I & H); exists x; (split; [exact I|]); destruct (Req_EM_T x 0); congruence. Qed.
Lemma lin_parallel_iff GMR AMR SMR st ln dR R0 : calculate_linearised_resistance_parallel GMR AMR SMR st ln = Ok (dR, R0) <->
  exists t1 p1 t2 p2 dt1 dp1 dt2 dp2 a0 s0 a1 s1, st = [t1; p1; t2; p2] /\ ln = [dt1; dp1; dt2; dp2] /\
    nth_error AMR 0 = Some a0 /\ nth_error SMR 0 = Some s0 /\ nth_error AMR 1 = Some a1 /\ nth_error SMR 1 = Some s1 /\
    let rho := angles4 t1 p1 t2 p2 in
    let f := fun rho => gmr_part GMR rho + first_part a0 s0 rho * second_part a1 s1 rho / (first_part a0 s0 rho + second_part a1 s1 rho + EPS) in
    ((exists x, In x (AMR ++ SMR) /\ x <> 0) /\ first_part a0 s0 rho + second_part a1 s1 rho + EPS <> 0 /\
       R0 = f rho /\ along f rho (angles4 dt1 dp1 dt2 dp2) dR \/
     (forall x, In x (AMR ++ SMR) -> x = 0) /\ R0 = gmr_part GMR rho /\ along (gmr_part GMR) rho (angles4 dt1 dp1 dt2 dp2) dR).
Proof.
  assert (AN : orb (py_any AMR) (py_any SMR) = true <-> exists x, In x (AMR ++ SMR) /\ x <> 0).
  { rewrite Bool.orb_true_iff, !any_iff. setoid_rewrite in_app_iff. split; [intros [(x & I & N)|(x & I & N)]; exists x; auto|]. intros (x & [I|I] & N); [left|right]; exists x; auto. }
  assert (AF : orb (py_any AMR) (py_any SMR) = false <-> forall x, In x (AMR ++ SMR) -> x = 0).
  { split.
    - intros E x I. destruct (Req_EM_T x 0) as [Z|Z]; [exact Z|]. assert (orb (py_any AMR) (py_any SMR) = true) by (apply AN; exists x; auto). congruence.
    - intros H. destruct (orb (py_any AMR) (py_any SMR)) eqn:EO; [|reflexivity]. destruct (proj1 AN eq_refl) as (x & I & N). elim (N (H x I)). }
  set (f := fun a0 s0 a1 s1 rho => gmr_part GMR rho + first_part a0 s0 rho * second_part a1 s1 rho / (first_part a0 s0 rho + second_part a1 s1 rho + EPS)).
  assert (K : forall a0 s0 a1 s1 rho a b c d, let e := if orb (py_any AMR) (py_any SMR) then EAdd (ling GMR) (EDiv (EMul (lin1 a0 s0) (lin2 a1 s1)) (EAdd (EAdd (lin1 a0 s0) (lin2 a1 s1)) (ENum EPS))) else ling GMR in
    (dR <-- evalf rho (linearise e a b c d) ;; R0 <-- evalf rho e ;; Ok (dR, R0)) = Ok (dR, R0) <->
    ((exists x, In x (AMR ++ SMR) /\ x <> 0) /\ first_part a0 s0 rho + second_part a1 s1 rho + EPS <> 0 /\ R0 = f a0 s0 a1 s1 rho /\ along (f a0 s0 a1 s1) rho (angles4 a b c d) dR \/
     (forall x, In x (AMR ++ SMR) -> x = 0) /\ R0 = gmr_part GMR rho /\ along (gmr_part GMR) rho (angles4 a b c d) dR)).
  { intros a0 s0 a1 s1 rho a b c d. destruct (lin_defined a0 s0 a1 s1 GMR rho) as (D1 & D2 & D3). cbv zeta. destruct (orb (py_any AMR) (py_any SMR)) eqn:EO.
    - assert (DE : defined rho (EAdd (ling GMR) (EDiv (EMul (lin1 a0 s0) (lin2 a1 s1)) (EAdd (EAdd (lin1 a0 s0) (lin2 a1 s1)) (ENum EPS)))) <-> first_part a0 s0 rho + second_part a1 s1 rho + EPS <> 0).
      { unfold EDiv. cbn [defined eval]. rewrite eval_lin1, eval_lin2. tauto. }
      destruct (Req_EM_T (first_part a0 s0 rho + second_part a1 s1 rho + EPS) 0) as [Z|Z].
      + split.
        * intros H. apply rbind_iff in H. destruct H as (x & _ & H). apply rbind_iff in H. destruct H as (y & H & _). apply evalf_iff in H. elim (proj1 DE (proj1 H) Z).
        * intros [(_ & X & _)|(X & _)]; [contradiction|]. apply AF in X. discriminate.
      + rewrite (lin_value _ _ (f a0 s0 a1 s1)); [|intros r; unfold EDiv, f; cbn [eval]; rewrite eval_ling, eval_lin1, eval_lin2; reflexivity|apply DE; exact Z]. split; [intros H; left; split; [apply AN; reflexivity|]; split; [exact Z|exact H]|]. intros [(_ & _ & H)|(X & _)]; [exact H|]. apply AF in X. discriminate.
    - rewrite (lin_value _ _ (gmr_part GMR)); [|apply eval_ling|exact D3]. split; [intros H; right; split; [apply AF; reflexivity|exact H]|]. intros [(X & _)|(_ & H)]; [apply AN in X; discriminate|exact H]. }
  unfold calculate_linearised_resistance_parallel. rewrite rbind_iff. split.
  - intros ([[[t1 p1] t2] p2] & U & H). apply unpack_iff in U. apply rbind_iff in H. destruct H as ([[[dt1 dp1] dt2] dp2] & V & H). apply unpack_iff in V. apply rbind_iff in H. destruct H as ([[e1 e2] g] & L & H). apply lin_iff in L. destruct L as (a0 & s0 & a1 & s1 & A0 & S0 & A1 & S1 & -> & -> & ->).
    apply K in H. exists t1, p1, t2, p2, dt1, dp1, dt2, dp2, a0, s0, a1, s1. repeat (split; [assumption|]). exact H.
  - intros (t1 & p1 & t2 & p2 & dt1 & dp1 & dt2 & dp2 & a0 & s0 & a1 & s1 & -> & -> & A0 & S0 & A1 & S1 & H). exists (t1, p1, t2, p2). split; [reflexivity|]. apply rbind_iff. exists (dt1, dp1, dt2, dp2). split; [reflexivity|]. apply rbind_iff. exists (lin1 a0 s0, lin2 a1 s1, ling GMR). split; [apply lin_iff; exists a0, s0, a1, s1; auto 10|]. apply K. exact H.
Qed.

(** ** The strip of the core *)
Lemma mapi_nth {A B} (f : nat -> A -> B) xs : forall i k, nth_error (mapi f i xs) k = option_map (f (i + k)%nat) (nth_error xs k).
Proof. induction xs as [|x xs IH]; intros i [|k]; cbn; try reflexivity; [rewrite Nat.add_0_r; reflexivity|]. rewrite IH. do 2 f_equal. lia. Qed.
Lemma parallel_of l r : ParallelOf l r -> in_parallel l (Fin r).
Proof.
  intros (N & Z & ->). right. left. split; [intros I; exact (N 0 I eq_refl)|]. eexists. split; [|reflexivity]. apply Rinv_r. exact Z.
Qed.
Lemma strip_agrees j p rx ry rz : strip_sized j -> same_strip j p -> stripMagnetoResistance j = Ok [rx; ry; rz] ->
  calculate_resistance_parallel p (map l_mag (j_layers j)) = Ok (Fin rx, Fin ry).
Proof.
  intros SZ (E1 & E2 & E3 & E4 & E5 & HF) H. apply P_Run.strip_sound in H. destruct H as (rx' & ry' & P1 & P2 & H). injection H as -> -> _. apply parallel_iff. exists (mapi (strip_long j) 0 (j_layers j)), (mapi (strip_trans j) 0 (j_layers j)).
  split; [|split; apply parallel_of; assumption]. destruct SZ as (S1 & _). split; [rewrite P_Run.mapi_length, E1, S1; reflexivity|]. split; [rewrite P_Run.mapi_length, E1, S1; reflexivity|]. intros i Li. rewrite E1, S1 in Li. destruct (HF i Li) as (rx0 & ry0 & amr & ahe & smr & q & F & Q).
  destruct (nth_error (j_layers j) i) as [l|] eqn:EL; [|apply nth_error_None in EL; unfold layerNo in Li; lia]. exists rx0, ry0, amr, ahe, smr, q, (l_mag l). split; [exact F|]. split; [apply map_nth_error; exact EL|]. destruct F as (F1 & F2 & F3 & F4 & F5 & _). rewrite E1 in F1. rewrite E2 in F2. rewrite E3 in F3. rewrite E5 in F4. rewrite E4 in F5.
  rewrite !mapi_nth, EL. cbn [option_map Nat.add]. unfold strip_long, strip_trans. rewrite Q, (nth_error_nth _ _ 0 F1), (nth_error_nth _ _ 0 F2), (nth_error_nth _ _ 0 F3), (nth_error_nth _ _ 0 F4), (nth_error_nth _ _ 0 F5).
  destruct (l_mag l) as [m1 m2 m3]. unfold longitudinal, transverse, Dot, ex, ey, ez. cbn [cx cy cz]. split; f_equal; field.
Qed.
