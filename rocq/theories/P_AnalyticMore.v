(** One layer: the analytical matrix is always right; uncoupled layers: the table depends on the order of a set. *)
From Verif Require Import P_Sym P_SB P_SBMotion P_SBTheorems P_TwoSolvers.
From Verif Require Export P_Analytic.
From Coq Require Import Reals Lra Lia FunctionalExtensionality.
Open Scope R_scope.

(** ** One layer *)
Definition env (x y h : R) : symbol -> R := fun s => match s with Theta _ => x | Phi _ => y | Hx => h | _ => 0 end.
Lemma one_lively s l : sv_layers s = [l] -> sb_id l = 0%nat -> sb_Ms l <> 0 -> sb_thickness l <> 0 -> all_lively s.
Proof.
  intros HL HI HM HT a b A B. destruct (field_energy_ok s) as [E HE]. pose proof (E_whole s E HE) as W. pose proof (E_value s E HE) as V.
  assert (FORM : E = EAdd (ENum 0) (EMul (no_interaction_symbolic_energy l field_syms) (ENum (sb_thickness l)))) by (unfold create_energy in HE; rewrite HL in HE; cbn in HE; injection HE as <-; reflexivity).
  assert (MU : mu0 <> 0) by (unfold mu0; lra).
  assert (GO : forall x y c, (forall h, eval (env x y h) (diff (diff E a) b) = h * c + eval (env x y 0) (diff (diff E a) b)) -> c <> 0 -> lively s a b).
  { intros x y c L Hc. destruct (Req_dec (eval (env x y 0) (diff (diff E a) b)) 0) as [Z|Z].
    - exists (env x y 1), (eval (env x y 1) (diff (diff E a) b)). split; [rewrite <- V; apply diff_partial2, W|]. rewrite L, Z. lra.
    - exists (env x y 0), (eval (env x y 0) (diff (diff E a) b)). split; [rewrite <- V; apply diff_partial2, W|exact Z]. }
  clear V W HE. rewrite HL in A, B. destruct A as (i & Hi & A), B as (j & Hj & B). cbn in Hi, Hj. assert (i = 0%nat) by lia. assert (j = 0%nat) by lia. subst i j.
  assert (NZ : mu0 * sb_Ms l * sb_thickness l <> 0) by (apply Rmult_integral_contrapositive_currified; [apply Rmult_integral_contrapositive_currified|]; assumption).
  destruct A as [-> | ->], B as [-> | ->].
  - apply (GO (PI / 2) 0 (mu0 * sb_Ms l * sb_thickness l)); [|exact NZ]. intros h. rewrite FORM. unfold no_interaction_symbolic_energy, sb_hdmi, sb_m, sb_theta, sb_phi. rewrite HI. destruct (sb_Hdmi l); cbn; rewrite ?sin_PI2, ?cos_PI2, ?sin_0, ?cos_0; ring.
  - apply (GO 0 (PI / 2) (mu0 * sb_Ms l * sb_thickness l)); [|exact NZ]. intros h. rewrite FORM. unfold no_interaction_symbolic_energy, sb_hdmi, sb_m, sb_theta, sb_phi. rewrite HI. destruct (sb_Hdmi l); cbn; rewrite ?sin_PI2, ?cos_PI2, ?sin_0, ?cos_0; ring.
  - apply (GO 0 (PI / 2) (mu0 * sb_Ms l * sb_thickness l)); [|exact NZ]. intros h. rewrite FORM. unfold no_interaction_symbolic_energy, sb_hdmi, sb_m, sb_theta, sb_phi. rewrite HI. destruct (sb_Hdmi l); cbn; rewrite ?sin_PI2, ?cos_PI2, ?sin_0, ?cos_0; ring.
  - apply (GO (PI / 2) 0 (mu0 * sb_Ms l * sb_thickness l)); [|exact NZ]. intros h. rewrite FORM. unfold no_interaction_symbolic_energy, sb_hdmi, sb_m, sb_theta, sb_phi. rewrite HI. destruct (sb_Hdmi l); cbn; rewrite ?sin_PI2, ?cos_PI2, ?sin_0, ?cos_0; ring.
Qed.

(** ** A sound simplifier *)
Fixpoint plain_zero (e : sexpr) : bool :=
  match e with
  | ENum r => if Req_EM_T r 0 then true else false
  | ESym _ | EInv _ | ECos _ => false
  | EAdd a b => plain_zero a && plain_zero b
  | EMul a b => plain_zero a || plain_zero b
  | ESin a => plain_zero a
  end.
Lemma plain_sound : sound plain_zero.
Proof.
  intros e. induction e as [r|s|a IHa b IHb|a IHa b IHb|a IHa|a IHa|a IHa]; cbn; intros Z rho; try discriminate.
  - destruct (Req_EM_T r 0); [assumption|discriminate].
  - apply andb_true_iff in Z. rewrite (IHa (proj1 Z) rho), (IHb (proj2 Z) rho). ring.
  - apply orb_true_iff in Z. destruct Z as [Z|Z]; [rewrite (IHa Z rho)|rewrite (IHb Z rho)]; ring.
  - rewrite (IHa Z rho). apply sin_0.
Qed.
Lemma plain_num : plain_zero (ENum 0) = true.
Proof. cbn. destruct (Req_EM_T 0 0); [reflexivity|lra]. Qed.
Lemma plain_diff e s : plain_zero e = true -> plain_zero (diff e s) = true.
Proof.
  induction e as [r|u|a IHa b IHb|a IHa b IHb|a IHa|a IHa|a IHa]; intros Z; try discriminate Z; cbn [diff].
  - apply plain_num.
  - cbn in Z |- *. apply andb_true_iff in Z. rewrite (IHa (proj1 Z)), (IHb (proj2 Z)). reflexivity.
  - cbn in Z |- *. apply orb_true_iff in Z. destruct Z as [Z|Z]; [rewrite (IHa Z), Z|rewrite (IHb Z), Z]; rewrite ?orb_true_r; reflexivity.
  - cbn in Z |- *. rewrite (IHa Z). reflexivity.
Qed.
Fixpoint absent (s : symbol) (e : sexpr) : bool :=
  match e with
  | ENum _ => true
  | ESym u => if symbol_eq_dec u s then false else true
  | EAdd a b | EMul a b => absent s a && absent s b
  | EInv a | ESin a | ECos a => absent s a
  end.
Lemma absent_zero s e : absent s e = true -> plain_zero (diff e s) = true.
Proof.
  induction e as [r|u|a IHa b IHb|a IHa b IHb|a IHa|a IHa|a IHa]; cbn [absent diff]; intros A; try (apply andb_true_iff in A; destruct A as [A B]).
  - apply plain_num.
  - destruct (symbol_eq_dec u s); [discriminate|apply plain_num].
  - cbn. rewrite (IHa A), (IHb B). reflexivity.
  - cbn. rewrite (IHa A), (IHb B), orb_true_r. reflexivity.
  - unfold ENeg. cbn. rewrite (IHa A). cbn. rewrite orb_true_r. reflexivity.
  - cbn. rewrite (IHa A). reflexivity.
  - unfold ENeg. cbn. rewrite (IHa A). rewrite !orb_true_r. reflexivity.
Qed.
Lemma absent_diff s u e : absent s e = true -> absent s (diff e u) = true.
Proof.
  induction e as [r|v|a IHa b IHb|a IHa b IHb|a IHa|a IHa|a IHa]; cbn [absent diff]; intros A; try (apply andb_true_iff in A; destruct A as [A B]).
  - reflexivity.
  - destruct (symbol_eq_dec v u); reflexivity.
  - rewrite (IHa A), (IHb B). reflexivity.
  - cbn. rewrite (IHa A), (IHb B), A, B. reflexivity.
  - unfold ENeg, ESq. cbn. rewrite (IHa A), A. reflexivity.
  - cbn. rewrite (IHa A), A. reflexivity.
  - unfold ENeg. cbn. rewrite (IHa A), A. reflexivity.
Qed.
Lemma second_zero_l e a b : absent a e = true -> plain_zero (diff (diff e a) b) = true.
Proof. intros A. apply plain_diff, absent_zero, A. Qed.
Lemma second_zero_r e a b : absent b e = true -> plain_zero (diff (diff e a) b) = true.
Proof. intros A. apply absent_zero, absent_diff, A. Qed.
Lemma second_zero e a b : plain_zero e = true -> plain_zero (diff (diff e a) b) = true.
Proof. intros A. apply plain_diff, plain_diff, A. Qed.
Lemma second_add e f a b : plain_zero (diff (diff (EAdd e f) a) b) = plain_zero (diff (diff e a) b) && plain_zero (diff (diff f a) b).
Proof. reflexivity. Qed.

(** ** Two layers without coupling *)
Definition free_film (i : nat) : layerSB := LayerSB i 1 (VO 0 0 0) 0 1 None (VO 0 0 0) None.
Definition free_pair : solver := Solver [free_film 0; free_film 1] [0] [0] None [Zero] None.
Definition late : list symbol := [Hz; Hx; Hy; Phi 0; Phi 1; Theta 0; Theta 1].
Definition early : list symbol := [Theta 0; Theta 1; Phi 0; Phi 1; Hx; Hy; Hz].
Lemma free_form E : create_energy free_pair (Some field_syms) false = Ok E -> exists e0 e1 p1 p2 p3, E = ESub (ESub (ESub (EAdd (EAdd (ENum 0) e0) e1) p1) p2) p3 /\
  absent (Theta 1) e0 = true /\ absent (Theta 0) e1 = true /\ plain_zero p1 = true /\ plain_zero p2 = true /\ plain_zero p3 = true.
Proof.
  intros HE. unfold create_energy in HE. cbn [rbind] in HE. injection HE as <-. cbn [free_pair sv_layers length fold_left seq Nat.sub]. unfold pair_energy. cbn [sv_dipole free_pair].
  do 5 eexists. split; [reflexivity|]. repeat split.
  - cbn. destruct (Req_EM_T 0 0); [reflexivity|lra].
  - cbn. destruct (Req_EM_T 0 0); [reflexivity|lra].
  - cbn. destruct (Req_EM_T 0 0); [reflexivity|lra].
Qed.
Lemma free_zero E : create_energy free_pair (Some field_syms) false = Ok E -> plain_zero (second E (Theta 0, Theta 1)) = true.
Proof.
  intros HE. destruct (free_form E HE) as (e0 & e1 & p1 & p2 & p3 & -> & A0 & A1 & Z1 & Z2 & Z3). unfold second, ESub. cbn [fst snd]. rewrite !second_add.
  rewrite (second_zero_r e0) by exact A0. rewrite (second_zero_l e1) by exact A1. rewrite !(second_zero (ENeg _)) by (unfold ENeg; cbn; rewrite ?Z1, ?Z2, ?Z3; apply orb_true_r). rewrite (second_zero (ENum 0)) by apply plain_num. reflexivity.
Qed.
Lemma late_pairs : exists b0 b1, pairs late = (b0 ++ (Hy, Theta 1) :: b1 ++ (Theta 0, Theta 1) :: [(Theta 1, Theta 1)])%list /\ forall q, In q b1 -> ~ outside 2 q.
Proof.
  exists (firstn 17 (pairs late)), (firstn 8 (skipn 18 (pairs late))). split; [reflexivity|]. intros q Hq O. cbn in Hq. apply O.
  assert (T0 : angle_of 2 (Theta 0)) by (exists 0%nat; auto). assert (T1 : angle_of 2 (Theta 1)) by (exists 1%nat; auto). assert (P0 : angle_of 2 (Phi 0)) by (exists 0%nat; auto). assert (P1 : angle_of 2 (Phi 1)) by (exists 1%nat; auto).
  repeat (destruct Hq as [<-|Hq]; [split; assumption|]). destruct Hq.
Qed.
Lemma late_value E : create_energy free_pair (Some field_syms) false = Ok E ->
  get_all_second_derivatives plain_zero 2 E late (org_diff 2 (Theta 0) (Theta 1)) = Some (second E (Hy, Theta 1)).
Proof.
  intros HE.
  assert (NZ : plain_zero (second E (Hy, Theta 1)) = false).
  { destruct (plain_zero (second E (Hy, Theta 1))) eqn:Z; [|reflexivity]. exfalso. pose proof (plain_sound _ Z (fun s => match s with Phi _ => PI / 2 | _ => 0 end)) as V. unfold create_energy in HE. cbn in HE. injection HE as <-. unfold second in V. cbn in V. rewrite ?sin_PI2, ?cos_PI2, ?sin_0, ?cos_0 in V.
    assert (mu0 = 0) by (revert V; generalize mu0; clear; intros; lra). unfold mu0 in *. lra. }
  destruct late_pairs as (b0 & b1 & EP & IN). unfold get_all_second_derivatives. rewrite EP, fold_left_app. cbn [fold_left]. rewrite fold_left_app.
  set (d0 := fold_left (visit plain_zero 2 E) b0 (fun _ => None)). set (d1 := visit plain_zero 2 E d0 (Hy, Theta 1)). set (d2 := fold_left (visit plain_zero 2 E) b1 d1).
  assert (D1 : d1 None = Some (second E (Hy, Theta 1))) by (unfold d1, visit, update, subs_table; cbn [fst snd org_diff argument key_eqb]; fold (second E (Hy, Theta 1)); change (diff (diff E Hy) (Theta 1)) with (second E (Hy, Theta 1)); rewrite NZ; reflexivity).
  assert (D2 : d2 None = Some (second E (Hy, Theta 1))) by (unfold d2; rewrite visits_after; [exact D1|]; intros q Hq K; apply org_none in K; exact (IN q Hq K)).
  transitivity (visit plain_zero 2 E d2 (Theta 0, Theta 1) (org_diff 2 (Theta 0) (Theta 1))); [reflexivity|]. unfold visit. unfold update. cbn [fst snd]. rewrite (proj2 (key_eqb_eq _ _) eq_refl). unfold subs_table. change (diff (diff E (Theta 0)) (Theta 1)) with (second E (Theta 0, Theta 1)). rewrite (free_zero E HE), D2. reflexivity.
Qed.
Lemma early_value E : get_all_second_derivatives plain_zero 2 E early (org_diff 2 (Theta 0) (Theta 1)) = Some (second E (Theta 0, Theta 1)).
Proof.
  unfold get_all_second_derivatives. change (pairs early) with ((Theta 0, Theta 0) :: (Theta 0, Theta 1) :: skipn 2 (pairs early)). cbn [fold_left]. rewrite visits_after.
  - unfold visit at 1. unfold update. cbn [fst snd]. rewrite (proj2 (key_eqb_eq _ _) eq_refl). unfold subs_table. change (diff (diff E (Theta 0)) (Theta 1)) with (second E (Theta 0, Theta 1)).
    destruct (plain_zero (second E (Theta 0, Theta 1))); reflexivity.
  - intros q Hq. cbn in Hq. repeat (destruct Hq as [<-|Hq]; [discriminate|]). destruct Hq.
Qed.
Lemma hy_value E : create_energy free_pair (Some field_syms) false = Ok E -> eval (fun s => match s with Phi _ => PI / 2 | _ => 0 end) (second E (Hy, Theta 1)) = - mu0.
Proof.
  intros HE. unfold create_energy in HE. cbn in HE. injection HE as <-. unfold second. cbn. rewrite ?sin_PI2, ?cos_PI2, ?sin_0, ?cos_0. generalize mu0. clear. intros. ring.
Qed.
(** ** An angle that the energy does not contain *)
Lemma matrix_missing zero s symbols a x b y : (a < length (sv_layers s))%nat -> (b < length (sv_layers s))%nat -> (x < 2)%nat -> (y < 2)%nat ->
  ~ In (ang Theta Phi a x) symbols \/ ~ In (ang Theta Phi b y) symbols ->
  analytical_matrix zero s symbols (2 * a + x)%nat (2 * b + y)%nat = Err (Throw "Cannot convert expression to float").
Proof.
  intros Ha Hb Hx Hy NI. destruct (field_energy_ok s) as [E HE]. unfold analytical_matrix. rewrite HE. cbn [rbind]. rewrite func_entry by assumption. unfold get_all_second_derivatives. rewrite visits_after; [reflexivity|].
  assert (AA : forall i u, (i < length (sv_layers s))%nat -> (u < 2)%nat -> angle_of (length (sv_layers s)) (ang Theta Phi i u)).
  { intros i u Hi Hu. exists i. split; [exact Hi|]. unfold ang. destruct (Nat.eqb u 0); auto. }
  intros q Hq K. apply pairs_in in Hq. destruct (org_some _ _ _ q (AA a x Ha Hx) (AA b y Hb Hy) K) as [-> | ->]; cbn in Hq; tauto.
Qed.
