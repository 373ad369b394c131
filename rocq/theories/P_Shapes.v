(** Proofs about line shapes and analytic drivers. *)
From Verif Require Export S_Shapes P_Resist.
From Verif Require Import P_DW P_Vsd.
Open Scope R_scope.
Open Scope st_scope.

Lemma pow2_gt_0 x : x <> 0 -> 0 < x ^ 2.
Proof. intros N. assert (H := pow2_ge_0 x). assert (x ^ 2 <> 0) by (apply pow_nonzero, N). lra. Qed.
Lemma sq_pos x w : x <> 0 \/ w <> 0 -> 0 < x ^ 2 + w ^ 2.
Proof.
  intros H. assert (A1 : 0 <= x ^ 2) by apply pow2_ge_0. assert (A2 : 0 <= w ^ 2) by apply pow2_ge_0.
  destruct H as [H|H]; [assert (0 < x ^ 2)|assert (0 < w ^ 2)]; try lra; apply pow2_gt_0, H.
Qed.
Lemma den_iff H Hr dH : (H - Hr) ^ 2 + dH ^ 2 <> 0 <-> dH <> 0 \/ H <> Hr.
Proof.
  split.
  - intros N. destruct (Req_dec dH 0) as [->|D]; [|left; exact D]. right. intros ->. apply N. ring.
  - intros D. assert (0 < (H - Hr) ^ 2 + dH ^ 2) by (apply sq_pos; destruct D; [right|left]; lra). lra.
Qed.
Lemma sym_iff H dH Hr Vs v : symmetric_lorentz H dH Hr Vs = Ok v <-> (dH <> 0 \/ H <> Hr) /\ v * ((H - Hr) ^ 2 + dH ^ 2) = Vs * dH ^ 2.
Proof.
  unfold symmetric_lorentz. rewrite fdiv_iff', den_iff. split; intros [A1 A2]; (split; [exact A1|]); apply den_iff in A1.
  - subst v. field. exact A1.
  - apply (Rmult_eq_reg_r ((H - Hr) ^ 2 + dH ^ 2)); [|exact A1]. rewrite A2. field. exact A1.
Qed.
Lemma anti_iff H dH Hr Vas v : antisymmetric_lorentz H dH Hr Vas = Ok v <-> (dH <> 0 \/ H <> Hr) /\ v * ((H - Hr) ^ 2 + dH ^ 2) = Vas * dH * (H - Hr).
Proof.
  unfold antisymmetric_lorentz. rewrite fdiv_iff', den_iff. split; intros [A1 A2]; (split; [exact A1|]); apply den_iff in A1.
  - subst v. field. exact A1.
  - apply (Rmult_eq_reg_r ((H - Hr) ^ 2 + dH ^ 2)); [|exact A1]. rewrite A2. field. exact A1.
Qed.
Lemma mixed_iff H dH Hr Va Vas v : mixed_lorentz H dH Hr Va Vas = Ok v <->
  (dH <> 0 \/ H <> Hr) /\ v * ((H - Hr) ^ 2 + dH ^ 2) = Va * dH ^ 2 + Vas * dH * (H - Hr).
Proof.
  unfold mixed_lorentz. split.
  - intros E. apply rbind_inv in E. destruct E as (s & E1 & E). apply rbind_inv in E. destruct E as (a & E2 & E). injection E as <-.
    apply sym_iff in E1. apply anti_iff in E2. destruct E1 as [D E1]. split; [exact D|]. destruct E2 as [_ E2]. rewrite Rmult_plus_distr_r. rewrite E1, E2. ring.
  - intros [D E]. assert (N := D). apply den_iff in N.
    assert (E1 : symmetric_lorentz H dH Hr Va = Ok (Va * dH ^ 2 / ((H - Hr) ^ 2 + dH ^ 2))) by (apply sym_iff; split; [exact D|field; exact N]).
    assert (E2 : antisymmetric_lorentz H dH Hr Vas = Ok (Vas * dH * (H - Hr) / ((H - Hr) ^ 2 + dH ^ 2))) by (apply anti_iff; split; [exact D|field; exact N]).
    rewrite E1, E2. cbn [rbind]. f_equal. apply (Rmult_eq_reg_r ((H - Hr) ^ 2 + dH ^ 2)); [|exact N]. rewrite E. field. exact N.
Qed.
(** Closed forms in the distance from the centre measured in half widths. *)
Lemma sym_value H dH Hr Vs : dH <> 0 -> symmetric_lorentz H dH Hr Vs = Ok (Lorentz (H - Hr) dH Vs).
Proof. intros D. apply sym_iff. split; [left; exact D|]. unfold Lorentz. assert (P := sq_pos (H - Hr) dH (or_intror D)). field. split; [exact D|]. nra. Qed.
Lemma anti_value H dH Hr Vas : dH <> 0 -> antisymmetric_lorentz H dH Hr Vas = Ok (Dispersion (H - Hr) dH Vas).
Proof. intros D. apply anti_iff. split; [left; exact D|]. unfold Dispersion. assert (P := sq_pos (H - Hr) dH (or_intror D)). field. split; [exact D|]. nra. Qed.
Lemma mixed_value H dH Hr Va Vas : dH <> 0 -> mixed_lorentz H dH Hr Va Vas = Ok (Lorentz (H - Hr) dH Va + Dispersion (H - Hr) dH Vas).
Proof. intros D. unfold mixed_lorentz. rewrite sym_value, anti_value by exact D. reflexivity. Qed.

(** Peak, half maximum. *)
Lemma sym_peak H dH Hr Vs v : dH <> 0 -> 0 < Vs -> symmetric_lorentz H dH Hr Vs = Ok v -> 0 < v <= Vs /\ (v = Vs <-> H = Hr).
Proof.
  intros D P E. apply sym_iff in E. destruct E as [_ E]. assert (Q := sq_pos (H - Hr) dH (or_intror D)). assert (Q2 : 0 < dH ^ 2) by (apply pow2_gt_0, D).
  assert (Q1 : 0 <= (H - Hr) ^ 2) by apply pow2_ge_0. repeat split.
  - apply (Rmult_lt_reg_r ((H - Hr) ^ 2 + dH ^ 2)); [exact Q|]. rewrite E. nra.
  - apply (Rmult_le_reg_r ((H - Hr) ^ 2 + dH ^ 2)); [exact Q|]. rewrite E. nra.
  - intros ->. assert (Z : Vs * (H - Hr) ^ 2 = 0) by lra. apply Rmult_integral in Z. destruct Z as [Z|Z]; [lra|]. cbn in Z. nra.
  - intros ->. replace ((Hr - Hr) ^ 2 + dH ^ 2) with (dH ^ 2) in E by ring. apply (Rmult_eq_reg_r (dH ^ 2)); lra.
Qed.
Lemma sym_half H dH Hr Vs v : dH <> 0 -> Vs <> 0 -> symmetric_lorentz H dH Hr Vs = Ok v -> (v = Vs / 2 <-> Rabs (H - Hr) = Rabs dH).
Proof.
  intros D P E. apply sym_iff in E. destruct E as [_ E]. assert (Q := sq_pos (H - Hr) dH (or_intror D)).
  assert (K : Rabs (H - Hr) = Rabs dH <-> (H - Hr) ^ 2 = dH ^ 2).
  { split; intros X.
    - rewrite <- (pow2_abs (H - Hr)), <- (pow2_abs dH), X. reflexivity.
    - apply Rsqr_eq_abs_0. unfold Rsqr. lra. }
  rewrite K. split.
  - intros ->. assert (Z : Vs * ((H - Hr) ^ 2 - dH ^ 2) = 0) by lra. apply Rmult_integral in Z. destruct Z; [contradiction|lra].
  - intros X. rewrite X in E. assert (0 < dH ^ 2) by (apply pow2_gt_0, D). nra.
Qed.
Lemma anti_bound H dH Hr Vas v : dH <> 0 -> antisymmetric_lorentz H dH Hr Vas = Ok v -> Rabs v <= Rabs Vas / 2 /\
  (Vas <> 0 -> (Rabs v = Rabs Vas / 2 <-> Rabs (H - Hr) = Rabs dH)) /\ (Vas <> 0 -> (v = 0 <-> H = Hr)).
Proof.
  intros D E. apply anti_iff in E. destruct E as [_ E]. assert (Q := sq_pos (H - Hr) dH (or_intror D)).
  assert (EA : Rabs v * ((H - Hr) ^ 2 + dH ^ 2) = Rabs Vas * Rabs dH * Rabs (H - Hr)).
  { rewrite <- (Rabs_pos_eq ((H - Hr) ^ 2 + dH ^ 2)) at 1 by lra. rewrite <- !Rabs_mult. f_equal. lra. }
  rewrite <- (pow2_abs (H - Hr)), <- (pow2_abs dH) in EA. rewrite <- (pow2_abs (H - Hr)), <- (pow2_abs dH) in Q.
  assert (PV := Rabs_pos Vas). assert (PD := Rabs_pos_lt dH D). assert (PH := Rabs_pos (H - Hr)). 
  set (a := Rabs (H - Hr)) in *. set (b := Rabs dH) in *. set (c := Rabs Vas) in *. set (u := Rabs v) in *.
  assert (SQ : 0 <= (a - b) ^ 2) by apply pow2_ge_0. split; [|split].
  - apply (Rmult_le_reg_r (a ^ 2 + b ^ 2)); [exact Q|]. rewrite EA. nra.
  - intros NV. assert (0 < c) by (apply Rabs_pos_lt, NV). split.
    + intros X. rewrite X in EA. assert (Z : c * (a - b) ^ 2 = 0) by nra. apply Rmult_integral in Z. destruct Z as [Z|Z]; [lra|]. cbn in Z. nra.
    + intros X. rewrite X in EA. assert (0 < b ^ 2) by (apply pow2_gt_0; lra). nra.
  - intros NV. split.
    + intros ->. rewrite Rmult_0_l in E. symmetry in E. apply Rmult_integral in E. destruct E as [E|E]; [|lra]. apply Rmult_integral in E. tauto.
    + intros ->. rewrite Rminus_diag_eq in E at 2 by reflexivity. rewrite Rmult_0_r in E. apply Rmult_integral in E. destruct E as [E|E]; [exact E|].
      exfalso. assert (P := sq_pos (Hr - Hr) dH (or_intror D)). lra.
Qed.
(** Parity about the centre. *)
Lemma sym_even x dH Hr Vs : symmetric_lorentz (Hr + x) dH Hr Vs = symmetric_lorentz (Hr - x) dH Hr Vs.
Proof. unfold symmetric_lorentz. f_equal. ring. Qed.
Lemma anti_odd x dH Hr Vas v : antisymmetric_lorentz (Hr + x) dH Hr Vas = Ok v -> antisymmetric_lorentz (Hr - x) dH Hr Vas = Ok (- v).
Proof. intros E. apply anti_iff in E. apply anti_iff. destruct E as [D E]. split; [destruct D; [left; assumption|right; lra]|]. nra. Qed.
(** The two parts trace a circle. *)
Lemma circle H dH Hr V s a : symmetric_lorentz H dH Hr V = Ok s -> antisymmetric_lorentz H dH Hr V = Ok a -> s ^ 2 + a ^ 2 = V * s.
Proof.
  intros E1 E2. apply sym_iff in E1. apply anti_iff in E2. destruct E1 as [D E1]. destruct E2 as [_ E2].
  apply den_iff in D. apply (Rmult_eq_reg_r (((H - Hr) ^ 2 + dH ^ 2) * ((H - Hr) ^ 2 + dH ^ 2))); [|apply Rmult_integral_contrapositive; split; exact D].
  set (q := (H - Hr) ^ 2 + dH ^ 2) in *. 
  transitivity ((s * q) ^ 2 + (a * q) ^ 2); [ring|]. transitivity (V * (s * q) * q); [|ring]. rewrite E1, E2. unfold q. ring.
Qed.
(** The parameters are determined by the curve up to the common sign of width and dispersion. *)
Lemma identify dH Hr Va Vas dH' Hr' Va' Vas' : dH <> 0 -> dH' <> 0 -> Va <> 0 \/ Vas <> 0 ->
  ((forall H, mixed_lorentz H dH Hr Va Vas = mixed_lorentz H dH' Hr' Va' Vas') <->
   Hr' = Hr /\ Va' = Va /\ (dH' = dH /\ Vas' = Vas \/ dH' = - dH /\ Vas' = - Vas)).
Proof.
  intros D D' N. split.
  - intros E.
    set (p := Va * dH ^ 2). set (q := Vas * dH). set (p' := Va' * dH' ^ 2). set (q' := Vas' * dH'). set (e := Hr' - Hr).
    assert (P : forall x, (p + q * x) * ((x - e) ^ 2 + dH' ^ 2) = (p' + q' * (x - e)) * (x ^ 2 + dH ^ 2)).
    { intros x. specialize (E (Hr + x)). assert (E1 := mixed_value (Hr + x) dH Hr Va Vas D). assert (E2 := E1). rewrite E in E2.
      apply mixed_iff in E1. apply mixed_iff in E2. destruct E1 as [_ E1]. destruct E2 as [_ E2].
      set (v := Lorentz (Hr + x - Hr) dH Va + Dispersion (Hr + x - Hr) dH Vas) in *.
      replace (Hr + x - Hr) with x in E1 by ring. replace (Hr + x - Hr') with (x - e) in E2 by (unfold e; ring).
      fold p q in E1. fold p' q' in E2. rewrite <- E1, <- E2. ring. }
    assert (P0 := P 0). assert (P1 := P 1). assert (P2 := P (-1)). assert (P3 := P 2). clear P E.
    assert (C3 : q = q') by lra. assert (C2 : p - e * q = p') by nra. 
    assert (C1 : q * (e ^ 2 + dH' ^ 2 - dH ^ 2) = 2 * e * p) by nra.
    assert (C0 : p * (e ^ 2 + dH' ^ 2 - dH ^ 2) = - 2 * e * q * dH ^ 2) by nra.
    assert (D2 : 0 < dH ^ 2) by (apply pow2_gt_0, D).
    assert (S0 : e ^ 2 + dH' ^ 2 - dH ^ 2 = 0).
    { set (s := e ^ 2 + dH' ^ 2 - dH ^ 2) in *. assert (Z : s * (q ^ 2 * dH ^ 2 + p ^ 2) = 0).
      { transitivity ((q * s) * (q * dH ^ 2) + (p * s) * p); [ring|]. rewrite C1, C0. ring. }
      apply Rmult_integral in Z. destruct Z as [Z|Z]; [exact Z|]. exfalso.
      assert (0 <= q ^ 2) by apply pow2_ge_0. assert (0 <= p ^ 2) by apply pow2_ge_0. 
      destruct N as [N|N].
      - assert (0 < p ^ 2) by (apply pow2_gt_0; unfold p; apply Rmult_integral_contrapositive; split; lra). nra.
      - assert (0 < q ^ 2) by (apply pow2_gt_0; unfold q; apply Rmult_integral_contrapositive; split; lra). nra. }
    rewrite S0 in C1, C0.
    assert (E0 : e = 0).
    { destruct N as [N|N].
      - assert (p <> 0) by (unfold p; apply Rmult_integral_contrapositive; split; lra). assert (Z : e * p = 0) by lra. apply Rmult_integral in Z. tauto.
      - assert (q <> 0) by (unfold q; apply Rmult_integral_contrapositive; split; lra). assert (Z : e * q = 0) by (apply (Rmult_eq_reg_r (dH ^ 2)); lra). apply Rmult_integral in Z. tauto. }
    rewrite E0 in *. assert (W : dH' ^ 2 = dH ^ 2) by lra. split; [unfold e in E0; lra|].
    split.
    + unfold p, p' in C2. rewrite W in C2. apply (Rmult_eq_reg_r (dH ^ 2)); lra.
    + assert (Z : (dH' - dH) * (dH' + dH) = 0) by lra. unfold q, q' in C3. apply Rmult_integral in Z. destruct Z as [Z|Z].
      * left. assert (dH' = dH) by lra. subst dH'. split; [reflexivity|]. apply (Rmult_eq_reg_r dH); lra.
      * right. assert (dH' = - dH) by lra. subst dH'. split; [reflexivity|]. apply (Rmult_eq_reg_r dH); lra.
  - intros (-> & -> & [(-> & ->)|(-> & ->)]) H; [reflexivity|].
    rewrite (mixed_value H dH Hr Va Vas D). symmetry. apply mixed_iff. split; [left; exact D'|].
    assert (EE := mixed_value H dH Hr Va Vas D). apply mixed_iff in EE. destruct EE as [_ EE]. replace ((- dH) ^ 2) with (dH ^ 2) by ring. rewrite EE. ring.
Qed.

(** ** Meinert model *)
Lemma meinert_cos phi V1 V2 po off : meinert_model phi V1 V2 po off = (V1 * (2 * cos ((phi - po) * (PI / 180)) ^ 2 - 1) - V2) * cos ((phi - po) * (PI / 180)) + off.
Proof. unfold meinert_model, deg2rad. rewrite cos_2a_cos. ring. Qed.
Lemma meinert_even x V1 V2 po off : meinert_model (po + x) V1 V2 po off = meinert_model (po - x) V1 V2 po off.
Proof.
  rewrite !meinert_cos. replace ((po + x - po) * (PI / 180)) with (x * (PI / 180)) by lra. replace ((po - x - po) * (PI / 180)) with (- (x * (PI / 180))) by lra.
  rewrite cos_neg. reflexivity.
Qed.
Lemma meinert_half phi V1 V2 po off : meinert_model (phi + 180) V1 V2 po off - off = - (meinert_model phi V1 V2 po off - off).
Proof.
  rewrite !meinert_cos. replace ((phi + 180 - po) * (PI / 180)) with ((phi - po) * (PI / 180) + PI) by field. rewrite neg_cos. ring.
Qed.
Lemma meinert_period phi V1 V2 po off : meinert_model (phi + 360) V1 V2 po off = meinert_model phi V1 V2 po off.
Proof.
  replace (phi + 360) with (phi + 180 + 180) by ring. assert (A1 := meinert_half (phi + 180) V1 V2 po off). assert (A2 := meinert_half phi V1 V2 po off). lra.
Qed.
Lemma meinert_identify V1 V2 off V1' V2' off' po : (forall phi, meinert_model phi V1 V2 po off = meinert_model phi V1' V2' po off') -> V1' = V1 /\ V2' = V2 /\ off' = off.
Proof.
  intros E. assert (E0 := E po). assert (E1 := E (po + 90)). assert (E2 := E (po + 45)). clear E. rewrite !meinert_cos in *.
  replace ((po - po) * (PI / 180)) with 0 in E0 by ring. replace ((po + 90 - po) * (PI / 180)) with (PI / 2) in E1 by field.
  replace ((po + 45 - po) * (PI / 180)) with (PI / 4) in E2 by field. rewrite cos_0 in E0. rewrite cos_PI2 in E1.
  assert (C : 2 * cos (PI / 4) ^ 2 - 1 = 0). { assert (X := cos_2a_cos (PI / 4)). replace (2 * (PI / 4)) with (PI / 2) in X by field. rewrite cos_PI2 in X. cbn. lra. }
  rewrite C in E2. assert (N : cos (PI / 4) <> 0) by (intros X; rewrite X in C; cbn in C; lra).
  assert (O : off' = off) by lra. assert (V : V2' = V2) by (apply (Rmult_eq_reg_r (cos (PI / 4))); [lra|exact N]). repeat split; lra.
Qed.

(** ** Analytic drivers *)
Lemma sine_period t amp w ph : w <> 0 -> sine_driver_py (t + 2 * PI / w) amp w ph = sine_driver_py t amp w ph.
Proof. intros N. unfold sine_driver_py. f_equal. replace (w * (t + 2 * PI / w) + ph) with (w * t + ph + 2 * PI) by (field; exact N). rewrite sin_plus, cos_2PI, sin_2PI. ring. Qed.
Lemma decay_iff t amp tau v : decay_driver t amp tau = Ok v <-> tau <> 0 /\ v = amp * exp (- t / tau).
Proof. unfold decay_driver. rewrite rbind_iff. split. - intros (q & E1 & E2). apply py_div_iff in E1. destruct E1 as [N ->]. injection E2 as <-. split; [exact N|reflexivity]. - intros [N ->]. exists (- t / tau). split; [apply py_div_iff; split; [exact N|reflexivity]|reflexivity]. Qed.
Lemma gaussian_iff t amp s v : gaussian_driver t amp s = Ok v <-> s <> 0 /\ v = amp * exp (- (t / s) ^ 2).
Proof.
  assert (K : s ^ 2 <> 0 <-> s <> 0) by (split; [intros X ->; apply X; ring|intros X; apply pow_nonzero, X]).
  unfold gaussian_driver. rewrite rbind_iff. split.
  - intros (q & E1 & E2). apply py_div_iff in E1. destruct E1 as [N ->]. apply K in N. injection E2 as <-. split; [exact N|]. do 2 f_equal. field. exact N.
  - intros [N ->]. exists (- t ^ 2 / s ^ 2). split; [apply py_div_iff; split; [apply K, N|reflexivity]|]. do 3 f_equal. field. exact N.
Qed.
Lemma decay_step t amp tau v w : decay_driver t amp tau = Ok v -> decay_driver (t + tau) amp tau = Ok w -> w * exp 1 = v.
Proof.
  intros E1 E2. apply decay_iff in E1. apply decay_iff in E2. destruct E1 as [N ->]. destruct E2 as [_ ->].
  rewrite Rmult_assoc, <- exp_plus. do 2 f_equal. field. exact N.
Qed.
Lemma gaussian_width amp s v : gaussian_driver s amp s = Ok v -> v * exp 1 = amp.
Proof.
  intros E. apply gaussian_iff in E. destruct E as [N ->]. replace (s / s) with 1 by (field; exact N). rewrite Rmult_assoc, <- exp_plus.
  replace (- 1 ^ 2 + 1) with 0 by ring. rewrite exp_0. ring.
Qed.
Lemma gaussian_peak t amp s v : 0 < amp -> gaussian_driver t amp s = Ok v -> 0 < v <= amp /\ (v = amp <-> t = 0).
Proof.
  intros P E. apply gaussian_iff in E. destruct E as [N ->]. assert (Q := exp_pos (- (t / s) ^ 2)). assert (Z := pow2_ge_0 (t / s)).
  assert (L : exp (- (t / s) ^ 2) <= 1). { destruct (Req_dec ((t / s) ^ 2) 0) as [X|X]; [rewrite X, Ropp_0, exp_0; lra|]. rewrite <- exp_0. left. apply exp_increasing. lra. }
  split; [nra|]. split.
  - intros X. assert (Y : exp (- (t / s) ^ 2) = exp 0) by (rewrite exp_0; apply (Rmult_eq_reg_l amp); lra). apply exp_inv in Y.
    assert (Z0 : (t / s) * (t / s) = 0) by (cbn in Y; lra). apply Rmult_integral in Z0. assert (t / s = 0) by tauto. 
    apply (Rmult_eq_reg_r (/ s)); [unfold Rdiv in H; lra|apply Rinv_neq_0_compat, N].
  - intros ->. replace (- (0 / s) ^ 2) with 0 by (field; exact N). rewrite exp_0. ring.
Qed.
