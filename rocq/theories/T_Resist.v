(** C50: resistance helpers. *)
From Verif Require Import P_Resist P_Sym P_Geom.
From Verif Require P_Vec P_Run P_RunProps.
From Verif Require Import P_RunEx.
From Coq Require Import Psatz.
Open Scope R_scope.
Open Scope st_scope.

(** ** C50 *)
Theorem c50_layers : forall p m rx ry, compute_resistance p m = Ok (rx, ry) <-> layers_of p m rx ry.
Proof. exact resistance_iff. Qed.
Theorem c50_series : forall p m x y, calculate_resistance_series p m = Ok (x, y) <->
  exists rx ry, layers_of p m rx ry /\ x = total (fun r => r) rx /\ y = total (fun r => r) ry.
Proof. exact series_iff. Qed.
Theorem c50_parallel : forall p m x y, calculate_resistance_parallel p m = Ok (x, y) <->
  exists rx ry, layers_of p m rx ry /\ in_parallel rx x /\ in_parallel ry y.
Proof. exact parallel_iff. Qed.
(** One layer: series and parallel agree, also for a layer of zero resistance. *)
Theorem c50_one_layer : forall p m r, length (sp_Rx0 p) = 1%nat -> calculate_resistance_series p m = Ok r ->
  calculate_resistance_parallel p m = Ok (Fin (fst r), Fin (snd r)).
Proof.
  intros p m [x y] L H. apply series_iff in H. destruct H as (rx & ry & (L1 & L2 & H) & -> & ->). apply parallel_iff. exists rx, ry. split; [split; [exact L1|split; [exact L2|exact H]]|].
  assert (K : forall l, length l = 1%nat -> in_parallel l (Fin (total (fun r => r) l))).
  { intros [|a [|b l]] E; try discriminate. cbn. rewrite Rplus_0_r. unfold in_parallel. destruct (Req_EM_T a 0) as [->|N]; [left; split; [left; reflexivity|reflexivity]|]. right. left. split; [intros [X|[]]; lra|]. exists a. split; [cbn; field; exact N|reflexivity]. }
  cbn [fst snd]. split; apply K; congruence.
Qed.
(** Positive layers: parallel below every layer below series. *)
Theorem c50_order : forall p m rx ry x y sx sy, compute_resistance p m = Ok (rx, ry) -> rx <> [] -> Forall (Rlt 0) rx -> Forall (Rlt 0) ry ->
  calculate_resistance_parallel p m = Ok (x, y) -> calculate_resistance_series p m = Ok (sx, sy) ->
  exists a b, x = Fin a /\ y = Fin b /\ 0 < a /\ 0 < b /\ Forall (fun r => a <= r <= sx) rx /\ Forall (fun r => b <= r <= sy) ry.
Proof.
  intros p m rx ry x y sx sy H N P1 P2 HP HS. apply resistance_iff in H. apply parallel_iff in HP. destruct HP as (rx1 & ry1 & HP & X & Y). apply series_iff in HS. destruct HS as (rx2 & ry2 & HS & -> & ->).
  destruct (layers_det _ _ _ _ _ _ H HP) as [<- <-]. destruct (layers_det _ _ _ _ _ _ H HS) as [<- <-]. assert (N2 : ry <> []). { intros ->. destruct H as (L1 & L2 & _). destruct rx; [congruence|]. rewrite <- L2 in L1. discriminate. }
  destruct (parallel_series_bounds _ _ P1 N X) as (a & -> & Pa & A). destruct (parallel_series_bounds _ _ P2 N2 Y) as (b & -> & Pb & B). exists a, b. repeat split; auto.
Qed.
(** Arrays of samples are handled sample by sample. *)
Theorem c50_samples_series : forall p T m mt t xs ys, sample t m mt -> (t < T)%nat -> calculate_resistance_series3 p T m = Ok (xs, ys) ->
  length xs = T /\ length ys = T /\ exists x y, nth_error xs t = Some x /\ nth_error ys t = Some y /\ calculate_resistance_series p mt = Ok (x, y).
Proof. exact series3_sample. Qed.
Theorem c50_samples_parallel : forall p T m mt t xs ys, sample t m mt -> (t < T)%nat -> calculate_resistance_parallel3 p T m = Ok (xs, ys) ->
  length xs = T /\ length ys = T /\ exists x y, nth_error xs t = Some x /\ nth_error ys t = Some y /\ calculate_resistance_parallel p mt = Ok (x, y).
Proof. exact parallel3_sample. Qed.
Theorem c50_samples_total : forall p T m mt r q, length m = length mt ->
  (calculate_resistance_series p mt = Ok r -> exists xs, calculate_resistance_series3 p T m = Ok xs) /\
  (calculate_resistance_parallel p mt = Ok q -> exists xs, calculate_resistance_parallel3 p T m = Ok xs).
Proof. intros p T m mt r q E. split; [apply series3_total; exact E|apply parallel3_total; exact E]. Qed.
Definition demo : strips := Strips [100; 200] [1; 1] [0; 10] [2; 2] [0; 20] [4; 1] [2; 1].
Example c50_ex : calculate_resistance_series demo [CV 0 0 1; CV 0 1 0] = Ok (320, 3) /\ (exists x y, calculate_resistance_parallel demo [CV 0 0 1; CV 0 1 0] = Ok (x, y) /\ exists a, x = Fin a /\ 0 < a <= 100).
Proof.
  assert (H : layers_of demo [CV 0 0 1; CV 0 1 0] [100; 220] [2; 1]).
  { split; [reflexivity|]. split; [reflexivity|]. intros [|[|i]] L; [| |cbn in L; lia].
    - exists 100, 1, 0, 2, 0, (1 / 2), (CV 0 0 1). split; [repeat split; try reflexivity; exists 4, 2; repeat split; lra|]. split; [reflexivity|]. cbn. unfold longitudinal, transverse, Dot, ex, ey, ez. split; f_equal; lra.
    - exists 200, 1, 10, 2, 20, 1, (CV 0 1 0). split; [repeat split; try reflexivity; exists 1, 1; repeat split; lra|]. split; [reflexivity|]. cbn. unfold longitudinal, transverse, Dot, ex, ey, ez. split; f_equal; lra. }
  assert (HS : calculate_resistance_series demo [CV 0 0 1; CV 0 1 0] = Ok (320, 3)). { apply series_iff. exists [100; 220], [2; 1]. split; [exact H|]. cbn. split; lra. }
  split; [exact HS|]. destruct (calculate_resistance_parallel demo [CV 0 0 1; CV 0 1 0]) as [[x y]|e] eqn:E.
  - exists x, y. split; [reflexivity|]. destruct (c50_order demo [CV 0 0 1; CV 0 1 0] [100; 220] [2; 1] x y 320 3) as (a & b & -> & _ & A & _ & F & _); [apply resistance_iff; exact H|discriminate|repeat constructor; lra|repeat constructor; lra|exact E|exact HS|].
    exists a. split; [reflexivity|]. inversion F; subst. lra.
  - unfold calculate_resistance_parallel in E. rewrite (proj2 (resistance_iff _ _ _ _) H) in E. discriminate.
Qed.
Example c50_samples_ex : exists xs ys, calculate_resistance_series3 demo 2 [[CV 0 0 1; CV 0 0 1]; [CV 0 1 0; CV 1 0 0]] = Ok (xs, ys) /\ nth_error xs 0 = Some 320.
Proof.
  destruct (series3_total demo 2 [[CV 0 0 1; CV 0 0 1]; [CV 0 1 0; CV 1 0 0]] [CV 0 0 1; CV 0 1 0] _ eq_refl (proj1 c50_ex)) as [[xs ys] E]. exists xs, ys. split; [exact E|].
  destruct (series3_sample demo 2 [[CV 0 0 1; CV 0 0 1]; [CV 0 1 0; CV 1 0 0]] [CV 0 0 1; CV 0 1 0] 0 xs ys) with (3 := E) as (_ & _ & x & y & X & _ & K); [repeat constructor|lia|]. rewrite (proj1 c50_ex) in K. injection K as <- <-. exact X.
Qed.
(** The parallel helper gives what a strip junction of the core reports. *)
Theorem c50_strip : forall j p rx ry rz, strip_sized j -> same_strip j p -> stripMagnetoResistance j = Ok [rx; ry; rz] ->
  calculate_resistance_parallel p (map l_mag (j_layers j)) = Ok (Fin rx, Fin ry).
Proof. exact strip_agrees. Qed.
Example c50_strip_ex : strip_sized ex_strip /\ same_strip ex_strip (Strips [100; 200] [50; 60] [10; 10] [3; 3] [1; 1] [-9; -9] [7; 7]) /\
  exists rx ry, stripMagnetoResistance ex_strip = Ok [rx; ry; 0].
Proof.
  assert (SZ : strip_sized ex_strip) by (repeat split). split; [exact SZ|]. split.
  - repeat (split; [reflexivity|]). intros [|[|i]] L; [| |cbn in L; lia].
    + exists 100, 50, 10, 3, 1, (- 7 / 9). split; [repeat split; try reflexivity; exists (-9), 7; repeat split; lra|]. cbn. lra.
    + exists 200, 60, 10, 3, 1, (- 7 / 9). split; [repeat split; try reflexivity; exists (-9), 7; repeat split; lra|]. cbn. lra.
  - destruct (P_RunProps.parallel_exists (mapi (strip_long ex_strip) 0 (j_layers ex_strip))) as [rx X]; [intros x I; apply ex_strip_positive; left; exact I|discriminate|]. destruct (P_RunProps.parallel_exists (mapi (strip_trans ex_strip) 0 (j_layers ex_strip))) as [ry Y]; [intros x I; apply ex_strip_positive; right; exact I|discriminate|].
    exists rx, ry. apply P_Run.strip_complete; assumption.
Qed.

(** compute_gmr is the magnetoresistance of a two-layer junction. *)
Theorem c50_gmr : forall Rp Rap a b, compute_gmr Rp Rap a b = Rp + (Rap - Rp) * (1 - Dot a b) / 2.
Proof. exact gmr_dot. Qed.
Theorem c50_gmr_junction : forall j a b, compute_gmr (j_Rp j) (j_Rap j) a b = calculateMagnetoresistance j (c_dot a b).
Proof. intros j a b. rewrite gmr_dot, P_Vec.c_dot_Dot. unfold calculateMagnetoresistance. field. Qed.
Theorem c50_gmr_range : forall Rp Rap a b, Unit a -> Unit b -> Rp <= Rap ->
  Rp <= compute_gmr Rp Rap a b <= Rap /\
  (Rp < Rap -> (compute_gmr Rp Rap a b = Rp <-> a = b) /\ (compute_gmr Rp Rap a b = Rap <-> a = Scal (-1) b)).
Proof.
  intros Rp Rap a b A B L. rewrite gmr_dot. destruct (dot_unit a b A B) as (D & E1 & E2). split; [nra|]. intros L'. rewrite <- E1, <- E2. split; split; intros H; nra.
Qed.
Example c50_gmr_range_ex : compute_gmr 100 200 (CV 0 0 1) (CV 0 0 1) = 100 /\ compute_gmr 100 200 (CV 0 0 1) (CV 0 0 (-1)) = 200.
Proof. split; unfold compute_gmr; cbn; lra. Qed.
(** calculate_magnetoresistance is the same with the sign and the offset lost. *)
Theorem c50_mr : forall Rp Rap m x, calculate_magnetoresistance Rp Rap m = Ok x <-> exists a b, m = [a; b] /\ x = Rp + (Rap - Rp) * Dot a b / 2.
Proof. exact mr_iff. Qed.
Theorem c50_mr_sum : forall Rp Rap a b x, calculate_magnetoresistance Rp Rap [a; b] = Ok x -> x + compute_gmr Rp Rap a b = (3 * Rp + Rap) / 2.
Proof. intros Rp Rap a b x H. apply mr_iff in H. destruct H as (a' & b' & E & ->). injection E as <- <-. rewrite gmr_dot. field. Qed.
Theorem c50_mr_refuted : exists Rp Rap a x, Unit a /\ 0 < Rp < Rap /\ calculate_magnetoresistance Rp Rap [a; Scal (-1) a] = Ok x /\ x < 0.
Proof. exists 1, 5, (CV 1 0 0), (-1). split; [unfold Unit, Norm2, Dot; lra|]. split; [lra|]. split; [|lra]. apply mr_iff. exists (CV 1 0 0), (Scal (-1) (CV 1 0 0)). split; [reflexivity|]. unfold Dot, Scal. lra. Qed.
(** The angular helper measures theta from the plane, the rest of the package from the pole. *)
Theorem c50_angular : forall Rp Rap t1 p1 t2 p2, angular_calculate_resistance_gmr Rp Rap t1 p1 t2 p2 =
  compute_gmr Rp Rap (point (PI / 2 - t1) p1 1) (point (PI / 2 - t2) p2 1).
Proof.
  intros. unfold angular_calculate_resistance_gmr. f_equal; unfold point; rewrite sin_shift, cos_shift; f_equal; ring.
Qed.
Theorem c50_angular_polar_refuted : exists t1 p1 t2 p2, angular_calculate_resistance_gmr 1 3 t1 p1 t2 p2 <> compute_gmr 1 3 (point t1 p1 1) (point t2 p2 1).
Proof.
  exists 0, 0, 0, PI. unfold angular_calculate_resistance_gmr, compute_gmr, point. cbn [cx cy cz]. rewrite sin_0, cos_0, sin_PI, cos_PI. lra.
Qed.

(** Linearised resistance of two layers: value at the stationary angles and first-order change along the
    given angle variations. *)
Theorem c50_linearised_series : forall GMR AMR SMR st ln dR R0, calculate_linearised_resistance_series GMR AMR SMR st ln = Ok (dR, R0) <->
  exists t1 p1 t2 p2 dt1 dp1 dt2 dp2 a0 s0 a1 s1, st = [t1; p1; t2; p2] /\ ln = [dt1; dp1; dt2; dp2] /\
    nth_error AMR 0 = Some a0 /\ nth_error SMR 0 = Some s0 /\ nth_error AMR 1 = Some a1 /\ nth_error SMR 1 = Some s1 /\
    let f := fun rho => gmr_part GMR rho + first_part a0 s0 rho + second_part a1 s1 rho in
    R0 = f (angles4 t1 p1 t2 p2) /\ along f (angles4 t1 p1 t2 p2) (angles4 dt1 dp1 dt2 dp2) dR.
Proof. exact lin_series_iff. Qed.
Theorem c50_linearised_parallel : forall GMR AMR SMR st ln dR R0, calculate_linearised_resistance_parallel GMR AMR SMR st ln = Ok (dR, R0) <->
  exists t1 p1 t2 p2 dt1 dp1 dt2 dp2 a0 s0 a1 s1, st = [t1; p1; t2; p2] /\ ln = [dt1; dp1; dt2; dp2] /\
    nth_error AMR 0 = Some a0 /\ nth_error SMR 0 = Some s0 /\ nth_error AMR 1 = Some a1 /\ nth_error SMR 1 = Some s1 /\
    let rho := angles4 t1 p1 t2 p2 in
    let f := fun rho => gmr_part GMR rho + first_part a0 s0 rho * second_part a1 s1 rho / (first_part a0 s0 rho + second_part a1 s1 rho + EPS) in
    ((exists x, In x (AMR ++ SMR) /\ x <> 0) /\ first_part a0 s0 rho + second_part a1 s1 rho + EPS <> 0 /\
       R0 = f rho /\ along f rho (angles4 dt1 dp1 dt2 dp2) dR \/
     (forall x, In x (AMR ++ SMR) -> x = 0) /\ R0 = gmr_part GMR rho /\ along (gmr_part GMR) rho (angles4 dt1 dp1 dt2 dp2) dR).
Proof. exact lin_parallel_iff. Qed.
Theorem c50_linearised_angles : forall t1 p1 t2 p2, let rho := angles4 t1 p1 t2 p2 in rho (Theta 1) = t1 /\ rho (Phi 1) = p1 /\ rho (Theta 2) = t2 /\ rho (Phi 2) = p2 /\
  forall s, ~ In s [Theta 1; Phi 1; Theta 2; Phi 2] -> rho s = 0.
Proof.
  intros t1 p1 t2 p2. cbn. repeat split. intros s N. destruct s as [[|[|[|i]]]|[|[|[|i]]]| | | | | | | |]; cbn; try reflexivity; exfalso; apply N; auto 6.
Qed.
Theorem c50_linearised_never_fails : forall GMR a0 a1 s0 s1 t1 p1 t2 p2 dt1 dp1 dt2 dp2,
  (exists r, calculate_linearised_resistance_series GMR [a0; a1] [s0; s1] [t1; p1; t2; p2] [dt1; dp1; dt2; dp2] = Ok r) /\
  (0 <= a0 -> 0 <= a1 -> 0 <= s0 -> 0 <= s1 -> exists r, calculate_linearised_resistance_parallel GMR [a0; a1] [s0; s1] [t1; p1; t2; p2] [dt1; dp1; dt2; dp2] = Ok r).
Proof.
  intros. split.
  - unfold calculate_linearised_resistance_series. cbn [unpack4 rbind calculate_linearised_resistance at_ nth_error].
    change (EAdd (EMul (ENum a0) (ESq (sx lin_m1))) (EMul (ENum s0) (ESq (sy lin_m1)))) with (lin1 a0 s0). change (EAdd (EMul (ENum a1) (ESq (sx lin_m2))) (EMul (ENum s1) (ESq (sy lin_m2)))) with (lin2 a1 s1). change (EDiv (EMul (ENum GMR) (ESub (ENum 1) (sdot lin_m1 lin_m2))) (ENum 2)) with (ling GMR).
    set (rho := angles4 t1 p1 t2 p2). destruct (lin_defined a0 s0 a1 s1 GMR rho) as (D1 & D2 & D3). assert (D : defined rho (EAdd (EAdd (ling GMR) (lin1 a0 s0)) (lin2 a1 s1))) by (cbn [defined]; auto). eexists.
    rewrite (proj2 (evalf_iff _ _ _) (conj (linearise_defined _ _ dt1 dp1 dt2 dp2 D) eq_refl)). cbn [rbind]. rewrite (proj2 (evalf_iff _ _ _) (conj D eq_refl)). reflexivity.
  - intros A0 A1 S0 S1. unfold calculate_linearised_resistance_parallel. cbn [unpack4 rbind calculate_linearised_resistance at_ nth_error].
    change (EAdd (EMul (ENum a0) (ESq (sx lin_m1))) (EMul (ENum s0) (ESq (sy lin_m1)))) with (lin1 a0 s0). change (EAdd (EMul (ENum a1) (ESq (sx lin_m2))) (EMul (ENum s1) (ESq (sy lin_m2)))) with (lin2 a1 s1). change (EDiv (EMul (ENum GMR) (ESub (ENum 1) (sdot lin_m1 lin_m2))) (ENum 2)) with (ling GMR).
    set (rho := angles4 t1 p1 t2 p2). destruct (lin_defined a0 s0 a1 s1 GMR rho) as (D1 & D2 & D3).
    match goal with |- context [linearise ?e _ _ _ _] => assert (D : defined rho e) end.
    { destruct (orb (py_any [a0; a1]) (py_any [s0; s1])); [|exact D3]. unfold EDiv. cbn [defined eval]. rewrite eval_lin1, eval_lin2. assert (0 < EPS) by (unfold EPS; apply Rinv_0_lt_compat, pow_lt; lra).
      assert (Q : forall u s v, 0 <= u -> 0 <= s -> 0 <= film_part u s v) by (intros u s v U S; unfold film_part; apply Rplus_le_le_0_compat; (apply Rmult_le_pos; [assumption|apply Rle_0_sqr])).
      assert (0 <= first_part a0 s0 rho) by (apply Q; assumption). assert (0 <= second_part a1 s1 rho) by (apply Q; assumption). assert (first_part a0 s0 rho + second_part a1 s1 rho + EPS <> 0) by lra. tauto. }
    eexists. rewrite (proj2 (evalf_iff _ _ _) (conj (linearise_defined _ _ dt1 dp1 dt2 dp2 D) eq_refl)). cbn [rbind]. rewrite (proj2 (evalf_iff _ _ _) (conj D eq_refl)). reflexivity.
Qed.
(** Layers at the same angles are not parallel for the linearised helpers: the second is mirrored. *)
Theorem c50_linearised_mirror_refuted : exists t p GMR, gmr_part GMR (angles4 t p t p) <> GMR * (1 - Dot (point t p 1) (point t p 1)) / 2.
Proof.
  exists (PI / 2), (PI / 2), 1. unfold gmr_part, point, mirror, Dot. cbn. rewrite sin_PI2, cos_PI2. lra.
Qed.
Example c50_linearised_ex : exists dR, calculate_linearised_resistance_series 2 [0; 0] [0; 0] [0; 0; 0; 0] [1; 0; 0; 0] = Ok (dR, 0).
Proof.
  destruct (proj1 (c50_linearised_never_fails 2 0 0 0 0 0 0 0 0 1 0 0 0)) as [[dR R0] E]. exists dR. rewrite E. do 2 f_equal. apply lin_series_iff in E.
  destruct E as (t1 & p1 & t2 & p2 & dt1 & dp1 & dt2 & dp2 & a0 & s0 & a1 & s1 & H & _ & A0 & S0 & A1 & S1 & -> & _). injection H as <- <- <- <-. injection A0 as <-. injection S0 as <-. injection A1 as <-. injection S1 as <-.
  unfold gmr_part, first_part, second_part, film_part, point, mirror, Dot. cbn. rewrite sin_0, cos_0. field.
Qed.

Print Assumptions c50_layers.
Print Assumptions c50_series.
Print Assumptions c50_parallel.
Print Assumptions c50_one_layer.
Print Assumptions c50_order.
Print Assumptions c50_samples_series.
Print Assumptions c50_samples_parallel.
Print Assumptions c50_samples_total.
Print Assumptions c50_strip.
Print Assumptions c50_gmr.
Print Assumptions c50_gmr_junction.
Print Assumptions c50_gmr_range.
Print Assumptions c50_mr.
Print Assumptions c50_mr_sum.
Print Assumptions c50_mr_refuted.
Print Assumptions c50_angular.
Print Assumptions c50_angular_polar_refuted.
Print Assumptions c50_linearised_series.
Print Assumptions c50_linearised_parallel.
Print Assumptions c50_linearised_angles.
Print Assumptions c50_linearised_never_fails.
Print Assumptions c50_linearised_mirror_refuted.
