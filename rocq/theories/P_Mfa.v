(** Lemmas on the Langevin function and the mean-field Curie-Weiss solver. *)
From Verif Require Export P_LlgbPhys.
From Coq Require Import Psatz.
Open Scope R_scope.
Open Scope st_scope.

Lemma sinh_pos x : 0 < x -> 0 < sinh x.
Proof. intros H. rewrite <- sinh_0. apply sinh_lt, H. Qed.
Lemma sinh_neg x : sinh (- x) = - sinh x.
Proof. unfold sinh. rewrite Ropp_involutive. field. Qed.
Lemma cosh_neg x : cosh (- x) = cosh x.
Proof. unfold cosh. rewrite Ropp_involutive. field. Qed.
Lemma sinh_nz x : x <> 0 -> sinh x <> 0.
Proof.
  intros H. destruct (Rtotal_order x 0) as [L|[E|G]]; [|contradiction|pose proof (sinh_pos x G); lra].
  pose proof (sinh_pos (- x) ltac:(lra)) as P. rewrite sinh_neg in P. lra.
Qed.
Lemma cosh_pos x : 0 < cosh x.
Proof. unfold cosh. pose proof (exp_pos x). pose proof (exp_pos (- x)). lra. Qed.
Lemma langevin_iff x v : langevin x = Ok v <-> x <> 0 /\ v = Lang x.
Proof.
  unfold langevin, tanh, fdiv. destruct (Req_EM_T (sinh x / cosh x) 0) as [E|E].
  - cbn. split; [discriminate|]. intros [Hx _]. exfalso. pose proof (cosh_pos x). pose proof (sinh_nz x Hx) as N. apply N.
    replace (sinh x) with (sinh x / cosh x * cosh x) by (field; lra). rewrite E. ring.
  - cbn [rbind]. destruct (Req_EM_T x 0) as [E0|E0]; cbn [rbind].
    + split; [discriminate|tauto].
    + pose proof (cosh_pos x). pose proof (sinh_nz x E0). assert (EQ : 1 / (sinh x / cosh x) - 1 / x = Lang x) by (unfold Lang; field; repeat split; lra).
      rewrite EQ. split; [intros K; apply Ok_inj in K; subst; auto|intros [_ ->]; reflexivity].
Qed.
Lemma derivative_iff x v : langevinDerivative x = Ok v <-> x <> 0 /\ v = 1 / (x * x) - 1 / (sinh x * sinh x).
Proof.
  unfold langevinDerivative, fdiv. destruct (Req_EM_T (sinh x * sinh x) 0) as [E|E].
  - cbn. split; [discriminate|]. intros [Hx _]. exfalso. pose proof (sinh_nz x Hx). apply Rmult_integral in E. tauto.
  - cbn [rbind]. destruct (Req_EM_T (x * x) 0) as [E0|E0]; cbn [rbind].
    + split; [discriminate|]. intros [Hx _]. apply Rmult_integral in E0. tauto.
    + assert (Hx : x <> 0) by (intros ->; apply E0; ring). assert (EQ : -1 / (sinh x * sinh x) + 1 / (x * x) = 1 / (x * x) - 1 / (sinh x * sinh x)) by (unfold Rdiv; ring).
      rewrite EQ. split; [intros K; apply Ok_inj in K; subst; auto|intros [_ ->]; reflexivity].
Qed.
Lemma sinh_derive x : derivable_pt_lim sinh x (cosh x).
Proof. apply derivable_pt_lim_sinh. Qed.
Lemma cosh_derive x : derivable_pt_lim cosh x (sinh x).
Proof. apply derivable_pt_lim_cosh. Qed.
Lemma Lang_derivative x : x <> 0 -> derivable_pt_lim Lang x (1 / (x * x) - 1 / (sinh x * sinh x)).
Proof.
  intros Hx. pose proof (sinh_nz x Hx) as Hs.
  pose proof (derivable_pt_lim_div cosh sinh x _ _ (cosh_derive x) (sinh_derive x) Hs) as A.
  pose proof (derivable_pt_lim_div (fct_cte 1) id x 0 1 (derivable_pt_lim_const 1 x) (derivable_pt_lim_id x) Hx) as B.
  pose proof (derivable_pt_lim_minus _ _ x _ _ A B) as D. unfold Rsqr, fct_cte, id in D.
  match type of D with derivable_pt_lim _ _ ?X => replace (1 / (x * x) - 1 / (sinh x * sinh x)) with X end; [exact D|].
  assert (C : cosh x * cosh x = 1 + sinh x * sinh x).
  { unfold cosh, sinh. assert (exp x * exp (- x) = 1) by (rewrite <- exp_plus, Rplus_opp_r, exp_0; reflexivity). nra. }
  replace (cosh x * cosh x) with (1 + sinh x * sinh x). field. split; assumption.
Qed.
(** Increasing functions from 0. *)
Lemma positive_from_zero f f' : f 0 = 0 -> (forall x, derivable_pt_lim f x (f' x)) -> (forall x, 0 < x -> 0 < f' x) -> forall x, 0 < x -> 0 < f x.
Proof.
  intros H0 HD HP x Hx. destruct (MVT_cor2 f f' 0 x Hx (fun c _ => HD c)) as (c & E & Hc). rewrite H0, Rminus_0_r in E. rewrite E. rewrite Rminus_0_r. specialize (HP c ltac:(lra)). nra.
Qed.
Lemma hyper1 x : 0 < x -> sinh x < x * cosh x.
Proof.
  intros Hx. assert (P : 0 < (fun x => x * cosh x - sinh x) x).
  { apply (positive_from_zero (fun x => x * cosh x - sinh x) (fun x => x * sinh x)); [cbv beta; rewrite sinh_0; ring| |intros y Hy; apply Rmult_lt_0_compat; [exact Hy|apply sinh_pos, Hy]|exact Hx].
    intros y. replace (y * sinh y) with (1 * cosh y + y * sinh y - cosh y) by ring.
    apply (derivable_pt_lim_minus (fun x => x * cosh x) sinh); [|apply sinh_derive].
    apply (derivable_pt_lim_mult id cosh y 1); [apply derivable_pt_lim_id|apply cosh_derive]. }
  cbv beta in P. lra.
Qed.
Lemma hyper2 x : 0 < x -> x * cosh x < (1 + x * x / 3) * sinh x.
Proof.
  intros Hx. assert (P : 0 < (fun x => (1 + x * x / 3) * sinh x - x * cosh x) x).
  { apply (positive_from_zero (fun x => (1 + x * x / 3) * sinh x - x * cosh x) (fun x => x / 3 * (x * cosh x - sinh x))); [cbv beta; rewrite sinh_0; ring| |intros y Hy; apply Rmult_lt_0_compat; [lra|pose proof (hyper1 y Hy); lra]|exact Hx].
    intros y. replace (y / 3 * (y * cosh y - sinh y)) with ((0 + 2 * y / 3) * sinh y + (1 + y * y / 3) * cosh y - (1 * cosh y + y * sinh y)) by field.
    apply (derivable_pt_lim_minus (fun x => (1 + x * x / 3) * sinh x) (fun x => x * cosh x)).
    - apply (derivable_pt_lim_mult (fun x => 1 + x * x / 3) sinh); [|apply sinh_derive].
      apply (derivable_pt_lim_plus (fct_cte 1) (fun x => x * x / 3)); [apply derivable_pt_lim_const|].
      replace (2 * y / 3) with (((1 * y + y * 1) * 3 - 0 * (y * y)) / Rsqr 3) by (unfold Rsqr; field).
      apply (derivable_pt_lim_div (fun x => x * x) (fct_cte 3) y _ 0); [|apply derivable_pt_lim_const|unfold fct_cte; lra].
      apply (derivable_pt_lim_mult id id y 1 1); apply derivable_pt_lim_id.
    - apply (derivable_pt_lim_mult id cosh y 1); [apply derivable_pt_lim_id|apply cosh_derive]. }
  cbv beta in P. lra.
Qed.
Lemma Lang_bounds x : 0 < x -> 0 < Lang x /\ Lang x < 1 /\ Lang x < x / 3.
Proof.
  intros Hx. pose proof (sinh_pos x Hx) as Hs. pose proof (hyper1 x Hx) as H1. pose proof (hyper2 x Hx) as H2.
  assert (D : 0 < x * sinh x) by (apply Rmult_lt_0_compat; assumption).
  assert (E : Lang x = (x * cosh x - sinh x) / (x * sinh x)) by (unfold Lang; field; lra).
  split; [rewrite E; apply Rdiv_lt_0_compat; lra|]. split.
  - rewrite E. apply Rmult_lt_reg_r with (x * sinh x); [exact D|]. unfold Rdiv. rewrite Rmult_assoc, Rinv_l, Rmult_1_r, Rmult_1_l by lra.
    pose proof (exp_ineq1 (2 * x) ltac:(lra)) as H3. assert (E2 : exp (2 * x) = exp x * exp x) by (rewrite <- exp_plus; f_equal; ring).
    assert (I : exp x * exp (- x) = 1) by (rewrite <- exp_plus, Rplus_opp_r, exp_0; reflexivity). unfold cosh, sinh in *. pose proof (exp_pos x). pose proof (exp_pos (- x)) as PN.
    assert (2 * x * exp (- x) < exp x - exp (- x)).
    { apply Rmult_lt_reg_r with (exp x); [assumption|]. rewrite Rmult_assoc, (Rmult_comm (exp (- x))), I. rewrite Rmult_minus_distr_r, (Rmult_comm (exp (- x))), I. lra. }
    lra.
  - rewrite E. apply Rmult_lt_reg_r with (x * sinh x); [exact D|]. unfold Rdiv. rewrite Rmult_assoc, Rinv_l, Rmult_1_r by lra. nra.
Qed.
Lemma Lang_odd x : x <> 0 -> Lang (- x) = - Lang x.
Proof. intros Hx. unfold Lang. rewrite sinh_neg, cosh_neg. pose proof (sinh_nz x Hx). field. repeat split; assumption. Qed.

(** ** The solver *)
Lemma mfa_iff n : forall b J0 relax tol est0 e0 x e, mfa_loop n b J0 relax tol est0 e0 = Ok (x, e) <->
  exists est k, est 0%nat = est0 /\ mfa_iterates b J0 relax est k /\ (forall q, (q < k)%nat -> tol <= residual b J0 (est q)) /\
    (((k < n)%nat /\ est k <> 0 /\ residual b J0 (est k) < tol /\ x = Lang (b * J0 * est k) /\ e = residual b J0 (est k)) \/
     (k = n /\ x = est n /\ e = match n with O => e0 | S p => residual b J0 (est p) end)) /\ (k = 0%nat \/ b * J0 <> 0) /\ ((k < n)%nat -> b * J0 <> 0).
Proof.
  induction n as [|n IH]; intros b J0 relax tol est0 e0 x e.
  - cbn [mfa_loop]. split.
    + intros H. apply Ok_inj in H. injection H as <- <-. exists (fun _ => est0), 0%nat. split; [reflexivity|]. split; [intros k Hk; lia|]. split; [intros; lia|].
      split; [right; auto|]. split; [auto|lia].
    + intros (est & k & H0 & _ & _ & [(Hk & _)|(-> & -> & ->)] & _); [lia|]. rewrite H0. reflexivity.
  - cbn [mfa_loop]. assert (NZ : b * J0 * est0 <> 0 <-> b * J0 <> 0 /\ est0 <> 0).
    { split; [intros K; split; intros Z; apply K; rewrite Z; ring|intros [A B]; apply Rmult_integral_contrapositive_currified; assumption]. }
    split.
    + intros H. apply rbind_inv in H. destruct H as (y & Ey & H). apply langevin_iff in Ey. destruct Ey as [Hnz ->]. apply NZ in Hnz. destruct Hnz as [Hb He].
      cbv zeta in H. destruct (Rlt_dec (Rabs (Lang (b * J0 * est0) - est0)) tol) as [Hl|Hl].
      * apply Ok_inj in H. injection H as <- <-. exists (fun _ => est0), 0%nat. split; [reflexivity|]. split; [intros k Hk; lia|]. split; [intros; lia|].
        split; [left; repeat split; auto; lia|]. split; auto.
      * apply IH in H. destruct H as (est & k & H0 & HI & HR & HC & H1 & H2).
        exists (fun q => match q with O => est0 | S q => est q end), (S k). split; [reflexivity|]. split.
        { intros [|q] Hq; [split; [exact He|rewrite H0; ring]|apply HI; lia]. }
        split. { intros [|q] Hq; [unfold residual; lra|apply HR; lia]. }
        split. { destruct HC as [(A & B & C & D & E)|(A & B & C)]; [left; repeat split; auto; lia|right; split; [congruence|]; split; [exact B|]]. rewrite C. destruct n; reflexivity. }
        split; auto.
    + intros (est & k & H0 & HI & HR & HC & H1 & H2). destruct k as [|k].
      * destruct HC as [(A & B & C & D & E)|(A & _)]; [|lia]. rewrite H0 in *. rewrite (proj2 (langevin_iff _ _) (conj (proj2 NZ (conj (H2 A) B)) eq_refl)). cbn [rbind].
        destruct (Rlt_dec (Rabs (Lang (b * J0 * est0) - est0)) tol) as [Hl|Hl]; [rewrite D, E; reflexivity|]. unfold residual in C. lra.
      * destruct (HI 0%nat ltac:(lia)) as [He E1]. rewrite H0 in He, E1. destruct H1 as [H1|H1]; [lia|].
        rewrite (proj2 (langevin_iff _ _) (conj (proj2 NZ (conj H1 He)) eq_refl)). cbn [rbind].
        pose proof (HR 0%nat ltac:(lia)) as R0. rewrite H0 in R0. unfold residual in R0.
        destruct (Rlt_dec (Rabs (Lang (b * J0 * est0) - est0)) tol) as [Hl|Hl]; [lra|]. apply IH.
        exists (fun q => est (S q)), k. split; [rewrite E1; ring|]. split; [intros q Hq; apply HI; lia|]. split; [intros q Hq; apply HR; lia|].
        split. { destruct HC as [(A & B & C & D & E)|(A & B & C)]; [left; repeat split; auto; lia|right; split; [lia|]; split; [exact B|]]. rewrite C. destruct n as [|n]; [unfold residual; rewrite H0; reflexivity|reflexivity]. }
        split; [auto|]. intros _. exact H1.
Qed.
Lemma weiss_iff est0 T J0 relax tol n x e : MFAWeissCurie est0 T J0 relax tol n = Ok (x, e) <->
  T <> 0 /\ mfa_loop n (1 / (kB * T)) J0 relax tol est0 0 = Ok (x, e).
Proof.
  unfold MFAWeissCurie. assert (K : BOLTZMANN_CONST = kB) by reflexivity. rewrite K. assert (KP : 0 < kB) by (unfold kB; apply Rdiv_lt_0_compat; [lra|apply pow_lt; lra]).
  unfold fdiv. destruct (Req_EM_T (kB * T) 0) as [E|E]; cbn [rbind].
  - split; [discriminate|]. intros [HT _]. exfalso. apply Rmult_integral in E. destruct E; [lra|tauto].
  - split; [|tauto]. intros H. split; [|exact H]. intros ->. apply E. ring.
Qed.
Lemma weiss_spec est0 T J0 relax tol n x e : MFAWeissCurie est0 T J0 relax tol n = Ok (x, e) <->
  T <> 0 /\ (n = 0%nat \/ J0 <> 0) /\
  exists est k, est 0%nat = est0 /\ mfa_iterates (1 / (kB * T)) J0 relax est k /\ (forall q, (q < k)%nat -> tol <= residual (1 / (kB * T)) J0 (est q)) /\
    (((k < n)%nat /\ est k <> 0 /\ residual (1 / (kB * T)) J0 (est k) < tol /\ x = Lang (1 / (kB * T) * J0 * est k) /\ e = residual (1 / (kB * T)) J0 (est k)) \/
     (k = n /\ x = est n /\ e = match n with O => 0 | S p => residual (1 / (kB * T)) J0 (est p) end)).
Proof.
  rewrite weiss_iff, mfa_iff. assert (KP : 0 < kB) by (unfold kB; apply Rdiv_lt_0_compat; [lra|apply pow_lt; lra]).
  assert (B : T <> 0 -> (1 / (kB * T) * J0 <> 0 <-> J0 <> 0)).
  { intros HT. assert (1 / (kB * T) <> 0). { unfold Rdiv. rewrite Rmult_1_l. apply Rinv_neq_0_compat, Rmult_integral_contrapositive_currified; lra. }
    split; [intros K Z; apply K; rewrite Z; ring|intros K; apply Rmult_integral_contrapositive_currified; assumption]. }
  split.
  - intros (HT & est & k & H0 & HI & HR & HC & H1 & H2). specialize (B HT). rewrite B in H1, H2. split; [exact HT|]. split.
    + destruct HC as [(A & _)|(-> & _)]; [right; apply H2, A|exact H1].
    + exists est, k. auto.
  - intros (HT & HJ & est & k & H0 & HI & HR & HC). specialize (B HT). split; [exact HT|]. exists est, k. rewrite B. repeat split; auto; try apply HI; auto.
    + destruct HJ as [->|HJ]; [|auto]. destruct HC as [(A & _)|(-> & _)]; [lia|auto].
    + intros Hk. destruct HJ as [->|HJ]; [lia|exact HJ].
Qed.
Lemma iterates_in_range b J0 relax est k : 0 < b * J0 -> 0 < relax <= 1 -> 0 < est 0%nat <= 1 -> (forall q, (q < k)%nat -> est (S q) = est q + relax * (Lang (b * J0 * est q) - est q)) ->
  forall q, (q <= k)%nat -> 0 < est q <= 1.
Proof.
  intros Hb Hr H0 H. induction q as [|q IH]; intros Hq; [exact H0|]. specialize (IH ltac:(lia)). rewrite (H q ltac:(lia)).
  assert (P : 0 < b * J0 * est q) by (apply Rmult_lt_0_compat; lra). destruct (Lang_bounds _ P) as (A & B & _). generalize dependent (Lang (b * J0 * est q)). intros y A B. generalize dependent (est q). intros z; intros. split; nra.
Qed.
Lemma mfa_total n : forall b J0 relax tol est0 e0, 0 < b * J0 -> 0 < relax <= 1 -> 0 < est0 <= 1 -> exists x e, mfa_loop n b J0 relax tol est0 e0 = Ok (x, e) /\ 0 < x <= 1.
Proof.
  induction n as [|n IH]; intros b J0 relax tol est0 e0 Hb Hr H0; [exists est0, e0; split; [reflexivity|exact H0]|].
  cbn [mfa_loop]. assert (P : 0 < b * J0 * est0) by (apply Rmult_lt_0_compat; lra). destruct (Lang_bounds _ P) as (A & B & _).
  assert (NZ : b * J0 * est0 <> 0) by lra. rewrite (proj2 (langevin_iff (b * J0 * est0) _) (conj NZ eq_refl)). cbn [rbind]. cbv zeta. destruct (Rlt_dec _ tol).
  - eexists _, _. split; [reflexivity|]. lra.
  - apply IH; auto. generalize dependent (Lang (b * J0 * est0)). intros y ? ? ?. split; nra.
Qed.
Lemma weiss_total est0 T J0 relax tol n : 0 < T -> 0 < J0 -> 0 < relax <= 1 -> 0 < est0 <= 1 ->
  exists x e, MFAWeissCurie est0 T J0 relax tol n = Ok (x, e) /\ 0 < x <= 1.
Proof.
  intros HT HJ Hr H0. assert (KP : 0 < kB) by (unfold kB; apply Rdiv_lt_0_compat; [lra|apply pow_lt; lra]).
  assert (P : 0 < 1 / (kB * T) * J0) by (apply Rmult_lt_0_compat; [apply Rdiv_lt_0_compat; [lra|apply Rmult_lt_0_compat; assumption]|exact HJ]).
  destruct (mfa_total n (1 / (kB * T)) J0 relax tol est0 0 P Hr H0) as (x & e & E & B). exists x, e. split; [|exact B]. apply weiss_iff. split; [lra|exact E].
Qed.
Lemma paramagnet b x : 0 < b <= 3 -> x <> 0 -> Lang (b * x) <> x.
Proof.
  intros Hb Hx. assert (P : forall y, 0 < y -> Lang (b * y) < y).
  { intros y Hy. assert (0 < b * y) by (apply Rmult_lt_0_compat; lra). destruct (Lang_bounds _ H) as (_ & _ & C). nra. }
  destruct (Rtotal_order x 0) as [L|[E|G]]; [|contradiction|specialize (P x G); lra].
  specialize (P (- x) ltac:(lra)). rewrite Ropp_mult_distr_r_reverse, Lang_odd in P; [lra|]. apply Rmult_integral_contrapositive_currified; lra.
Qed.
