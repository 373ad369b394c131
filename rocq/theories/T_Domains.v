(** Property C91: the domain simulation of the front end. *)
From Verif Require Import P_Domains S_Domains P_Fit.
From Coq Require Import Psatz.
Open Scope R_scope.
Open Scope st_scope.

(** A form with two domains, a field scanned there and back along z, two steps per field. *)
Definition c91_form : domain_form :=
  DomForm 2 (fun i => INR i + 1) (fun i => 90 * INR i) (fun _ => 45) (fun i => INR i + 1) 1 1 (1 / 100) "z" (-100) 100 3 true (2 * 10 ^ 9) 1 1.
Example c91_form_ok : 0 <= df_step c91_form /\ total_area c91_form = 3 /\ step_counts (df_time c91_form / 10 ^ 9) (df_step c91_form) (df_step c91_form) 2 1.
Proof.
  split; [cbn; lra|]. split; [cbn; lra|]. cbn [df_time df_step c91_form]. replace (2 * 10 ^ 9 / 10 ^ 9) with 2 by field. unfold step_counts, IntegerPart. cbn [INR].
  repeat split; try lra; left; lra.
Qed.

(** C91.  The simulation answers exactly with the curves of independent macrospins, each started on its easy axis and
    carried from one field to the next, and with their mean weighted by area. *)
Theorem c91_domains : forall rng nsrc s Hscan mixed curves, 0 <= df_step s ->
  simulate_domains rng nsrc s = Ok (Hscan, mixed, curves) <-> domains_spec s Hscan mixed curves.
Proof. exact domains_iff. Qed.
(** It answers exactly for a known axis, a nonzero total area, usable material constants and at least one averaged sample. *)
Theorem c91_answers : forall rng nsrc s, 0 <= df_step s ->
  (exists out, simulate_domains rng nsrc s = Ok out) <->
  (0 < df_N s)%nat /\ total_area s <> 0 /\ In (df_axis s) ["x"; "y"; "z"; "xy"; "xz"; "yz"]%string /\ (0 <= df_Hsteps s)%Z /\
  ((0 < df_Hsteps s)%Z -> df_Ms s <> 0 /\ df_thickness s <> 0 /\
     exists n, step_counts (df_time s / 10 ^ 9) (df_step s) (df_step s) n 1 /\ (0 < n)%nat /\ (- df_last s < Z.of_nat n)%Z).
Proof. exact answers_iff. Qed.
Example c91_runs : exists out, simulate_domains (fun _ _ => 0) (fun _ _ _ => Zero) c91_form = Ok out.
Proof.
  apply c91_answers; [apply c91_form_ok|]. destruct c91_form_ok as (_ & A & C). split; [cbn; lia|]. split; [rewrite A; lra|]. split; [cbn; tauto|]. split; [cbn; lia|].
  intros _. split; [cbn; lra|]. split; [cbn; lra|]. exists 2%nat. split; [exact C|]. cbn. lia.
Qed.
(** The curve of a domain depends on its own anisotropy and on the shared settings only: not on the number of domains, on the
    other domains, on its own number, or on any area. *)
Theorem c91_independent : forall rng nsrc rng' nsrc' s s' h m c h' m' c' i i' x x',
  simulate_domains rng nsrc s = Ok (h, m, c) -> simulate_domains rng' nsrc' s' = Ok (h', m', c') ->
  df_Ms s = df_Ms s' -> df_thickness s = df_thickness s' -> df_alpha s = df_alpha s' -> df_axis s = df_axis s' -> df_Hmin s = df_Hmin s' -> df_Hmax s = df_Hmax s' ->
  df_Hsteps s = df_Hsteps s' -> df_back s = df_back s' -> df_time s = df_time s' -> df_step s = df_step s' -> df_last s = df_last s' ->
  df_K s i = df_K s' i' -> df_theta s i = df_theta s' i' -> df_phi s i = df_phi s' i' ->
  nth_error c i = Some x -> nth_error c' i' = Some x' -> x = x'.
Proof.
  intros rng nsrc rng' nsrc' s s' h m c h' m' c' i i' x x' E E' EM ET EA EX E1 E2 E3 E4 E5 E6 E7 EK EH EP Hx Hx'.
  apply domains_sound in E. apply domains_sound in E'.
  destruct E as (_ & _ & th & ph & Hs & A & B & _ & C & _). destruct E' as (_ & _ & th' & ph' & Hs' & A' & B' & _ & C' & _).
  rewrite EX in A. rewrite A in A'. injection A' as <- <-. rewrite E1, E2, E3, E4 in B. rewrite B in B'. injection B' as <- <-.
  specialize (C i x Hx). specialize (C' i' x' Hx'). apply (curve_unique s' i' Hs); [|exact C'].
  unfold domain_curve, easy_axis in *. rewrite EM, ET, EA, E5, E6, E7, EK, EH, EP in C. exact C.
Qed.
(** Only the proportions of the areas count. *)
Theorem c91_proportions : forall rng nsrc s k, 0 <= df_step s -> k <> 0 ->
  forall out, simulate_domains rng nsrc s = Ok out <->
    simulate_domains rng nsrc (DomForm (df_N s) (df_K s) (df_theta s) (df_phi s) (fun i => k * df_area s i) (df_Ms s) (df_thickness s) (df_alpha s)
      (df_axis s) (df_Hmin s) (df_Hmax s) (df_Hsteps s) (df_back s) (df_time s) (df_step s) (df_last s)) = Ok out.
Proof.
  intros rng nsrc s k HD HK [[h m] c]. rewrite !domains_iff by exact HD. unfold domains_spec.
  set (s' := DomForm _ _ _ _ _ _ _ _ _ _ _ _ _ _ _ _).
  assert (T : total_area s' = k * total_area s).
  { unfold total_area. cbn [df_N df_area s']. induction (seq 0 (df_N s)) as [|i l IH]; cbn [fold_right]; [ring|]. rewrite IH. ring. }
  assert (T0 : total_area s' <> 0 <-> total_area s <> 0).
  { rewrite T. split; [intros X Y; apply X; rewrite Y; ring|intros X; apply Rmult_integral_contrapositive_currified; assumption]. }
  assert (S : forall f v, Scal (total_area s') v = Sum (mapi (fun i curve => Scal (df_area s' i) (nth f curve Zero)) 0 c) <->
                          Scal (total_area s) v = Sum (mapi (fun i curve => Scal (df_area s i) (nth f curve Zero)) 0 c)).
  { intros f v. assert (X : forall a, Sum (mapi (fun i curve => Scal (df_area s' i) (nth f curve Zero)) a c) = Scal k (Sum (mapi (fun i curve => Scal (df_area s i) (nth f curve Zero)) a c))).
    { induction c as [|x c IH]; intros a; cbn [mapi Sum fold_right]; [apply vec_eq; cbn; ring|]. fold (Sum (mapi (fun i curve => Scal (df_area s' i) (nth f curve Zero)) (S a) c)).
      fold (Sum (mapi (fun i curve => Scal (df_area s i) (nth f curve Zero)) (S a) c)). rewrite IH. cbn [df_area s']. destruct (Sum _), (nth f x Zero). apply vec_eq; cbn; ring. }
    rewrite X, T. replace (Scal (k * total_area s) v) with (Scal k (Scal (total_area s) v)) by (destruct v; apply vec_eq; cbn; ring).
    split; [apply Scal_inj, HK|intros ->; reflexivity]. }
  setoid_rewrite T0. setoid_rewrite S. reflexivity.
Qed.
(** With areas that are not negative the mean is inside the unit ball, as is every point of every curve. *)
Theorem c91_bounded : forall rng nsrc s h m c, simulate_domains rng nsrc s = Ok (h, m, c) ->
  (forall x a, In x c -> In a x -> Norm a <= 1) /\
  ((forall i, (i < df_N s)%nat -> 0 <= df_area s i) -> forall v, In v m -> Norm v <= 1).
Proof.
  intros rng nsrc s h m c E. apply domains_sound in E. destruct E as (HN & W & th & ph & Hs & _ & _ & L & C & _ & M).
  assert (B : forall x a, In x c -> In a x -> Norm a <= 1).
  { intros x a Hx Ha. apply In_nth_error in Hx. destruct Hx as [i Hi]. destruct (C i x Hi) as (_ & n & _ & HH). exact (hysteresis_norm _ _ _ _ _ _ _ _ _ _ HH a Ha). }
  split; [exact B|]. intros HA v Hv. apply In_nth_error in Hv. destruct Hv as [f Hf]. specialize (M f v Hf).
  pose proof (mixed_norm s c f L HA B) as X. rewrite <- M in X. pose proof (total_nonneg s HA) as P. rewrite Norm_scal_pos in X by exact P.
  apply (Rmult_le_reg_l (total_area s)); lra.
Qed.
(** A total area of zero is an error, also if the single areas are not zero. *)
Theorem c91_zero_area : forall rng nsrc s th ph, (0 < df_N s)%nat -> get_axis_angles (df_axis s) = Ok (th, ph) -> (0 <= df_Hsteps s)%Z -> total_area s = 0 ->
  simulate_domains rng nsrc s = Err (Throw "float division by zero").
Proof.
  intros rng nsrc s th ph HN EA ST W. unfold simulate_domains. rewrite EA. cbn [rbind fst snd].
  destruct (axis_scan_ok (df_Hmin s * 10 ^ 3) (df_Hmax s * 10 ^ 3) (df_Hsteps s) th ph (df_back s) ST) as (hs & Hs & ES & _). rewrite ES. cbn [rbind fst snd].
  destruct (start_ok rng nsrc s HN) as (ls & j & E1 & E2 & _). rewrite E1. cbn [rbind]. rewrite E2. cbn [rbind]. fold (wsum s).
  rewrite wsum_total in W. assert (W' : wsum s = 0) by (apply (Rmult_eq_reg_r (10 ^ 18)); [rewrite Rmult_0_l; exact W|lra]).
  unfold py_div. rewrite W'. destruct (df_N s); [lia|]. cbn [seq map rmap]. destruct (Req_EM_T 0 0) as [_|X]; [reflexivity|lra].
Qed.
Example c91_zero_area_ex : total_area (DomForm 2 (fun _ => 1) (fun _ => 0) (fun _ => 0) (fun i => 1 - 2 * INR i) 1 1 0 "x" 0 1 2 false 1 1 1) = 0.
Proof. cbn. lra. Qed.
Print Assumptions c91_domains.
Print Assumptions c91_answers.
Print Assumptions c91_independent.
Print Assumptions c91_proportions.
Print Assumptions c91_bounded.
Print Assumptions c91_zero_area.
