(** Names EnergyCompute cannot read, and mixed logs. *)
From Verif Require Export P_EnergyRun.
From Coq Require Import String Ascii List Permutation.
Open Scope R_scope.
Open Scope st_scope.

Lemma unknown_layer S t g f p : field_key g f -> first_word f p -> ~ mag_name g p -> forall data, compute_from_log (EnergyCompute S t g) <> Ok data.
Proof.
  intros F W N data E. apply compute_sound in E. destruct E as (_ & _ & _ & H). destruct (H f F) as (v & q & m & h & ps & A & W' & N' & _).
  rewrite (first_word_fun _ _ _ W W') in N. contradiction.
Qed.
Lemma lengths_differ S t g f p m h : field_key g f -> first_word f p -> reads g (p ++ "_m") m -> reads g f h ->
  length m <> length h -> length m <> 1%nat -> length h <> 1%nat -> forall data, compute_from_log (EnergyCompute S t g) <> Ok data.
Proof.
  intros F W Rm Rh L1 L2 L3 data E. apply compute_sound in E. destruct E as (_ & _ & _ & H). destruct (H f F) as (v & q & m' & h' & ps & A & W' & N' & Rm' & Rh' & P & _).
  rewrite <- (first_word_fun _ _ _ W W') in Rm'. rewrite <- (reads_fun _ _ _ _ Rm Rm'), <- (reads_fun _ _ _ _ Rh Rh') in P.
  destruct P as [(X & _)|[(_ & h0 & -> & _)|(_ & m0 & -> & _)]]; [contradiction|apply L3; reflexivity|apply L2; reflexivity].
Qed.
Lemma no_size S t g f p m h : field_key g f -> first_word f p -> reads g (p ++ "_m") m -> reads g f h -> m <> [] -> h <> [] -> per S t f 0 -> 
  forall data, compute_from_log (EnergyCompute S t g) <> Ok data.
Proof.
  intros F W Rm Rh L2 L3 Z data E. apply compute_sound in E. destruct E as (_ & _ & _ & H). destruct (H f F) as (v & q & m' & h' & ps & A & W' & N' & Rm' & Rh' & P & PA & [->|NZ] & _).
  - rewrite <- (first_word_fun _ _ _ W W') in Rm'. rewrite <- (reads_fun _ _ _ _ Rm Rm'), <- (reads_fun _ _ _ _ Rh Rh') in P.
    destruct P as [(_ & X & _)|[(_ & h0 & _ & X)|(_ & m0 & _ & X)]]; [apply L2; symmetry; exact X| |]; [destruct m|destruct h]; try discriminate; contradiction.
  - apply NZ. destruct Z as [(J & Z)|(J & Z)], PA as [(J' & ->)|(J' & ->)]; try contradiction; congruence.
Qed.
(** ** Reserved names *)
Lemma erased_plain k r : Erased k r -> us r = 0%nat -> (forall a b, k = (a ++ "_" ++ b)%string -> Starts "mx" b) .
Proof.
  induction 1 as [|s r H IH|c s r N H IH]; intros U a b E.
  - destruct a; discriminate.
  - destruct a as [|a1 [|a2 [|a3 a]]]; cbn in E.
    + injection E as E. exists s. symmetry. exact E.
    + discriminate.
    + discriminate.
    + injection E as _ _ _ E. exact (IH U a b E).
  - cbn [us] in U. destruct a as [|d a]; cbn in E.
    + injection E as -> _. cbn in U. lia.
    + injection E as _ E. apply (IH ltac:(lia) a b E).
Qed.
Lemma reserved_names S t T dt wf mode j j' l0 l1 : named j -> j_mode j = MR_CLASSIC -> j_layers j = [l0; l1] -> plain (l_id l0) -> plain (l_id l1) ->
  l_id l0 <> "R"%string -> l_id l1 <> "R"%string -> Starts "H" (l_id l0) \/ Starts "H" (l_id l1) -> j_log j = [] ->
  runSimulation T dt wf true mode j = (j', Ok tt) -> j_logLength j' <> j_logLength j ->
  forall data, compute_from_log (EnergyCompute S t (j_log j')) <> Ok data.
Proof.
  intros NM MC LS PL0 PL1 NR0 NR1 ST EL E LL. assert (ES := E). apply run_sound in ES. destruct ES as (N0 & w0 & j0 & r0 & u0 & s0 & rows0 & HC0 & HS0 & H00 & _ & _ & HR0 & Ej & _).
  destruct (run_rows_w _ _ _ _ _ _ _ E) as (N & w & r & used & s & rows & HC & HS & HT & Hw & (HR1 & HR2) & EG). rewrite EL in EG.
  destruct (step_counts_unique _ _ _ _ _ _ _ HC HC0) as [EN EW]. subst N0 w0.
  set (n := rows_needed N w) in *.
  assert (P : (0 < n)%nat).
  { destruct HR0 as (X & _). rewrite Ej in LL. cbn in LL. assert (Y : j_logLength j0 = j_logLength j) by (destruct HS0 as (_ & -> & _); reflexivity). rewrite X, Y in LL. unfold n. lia. }
  assert (HK : forall k, (k < n)%nat -> (Datatypes.S (k * w) <= N)%nat) by (intros k Hk; exact (row_in_run N w k Hw Hk)).
  assert (SH : forall k, (k < n)%nat -> shape j (s (Datatypes.S (k * w)))).
  { intros k Hk. eapply shape_trans; [exact (selects_shape _ _ _ _ _ _ HS)|]. apply stepwise_shape, (traj_static r dt s N); [exact HT|apply HK, Hk]. }
  assert (LK : forall k, (k < n)%nat -> j_mode (s (Datatypes.S (k * w))) = MR_CLASSIC /\ exists a b, j_layers (s (Datatypes.S (k * w))) = [a; b] /\ l_id a = l_id l0 /\ l_id b = l_id l1 /\ j_Rtag (s (Datatypes.S (k * w))) = ("R_" ++ l_id l0 ++ "_" ++ l_id l1)%string).
  { intros k Hk. pose proof (SH k Hk) as SHk. destruct (named_shape _ _ SHk NM) as (X1 & _ & _).
    assert (IDS : ids (s (Datatypes.S (k * w))) = ids j) by (destruct SHk as (Y & _); first [exact Y|symmetry; exact Y]).
    assert (MD : j_mode (s (Datatypes.S (k * w))) = MR_CLASSIC) by (unfold shape in SHk; decompose [and] SHk; congruence). split; [exact MD|].
    unfold ids in IDS. rewrite LS in IDS. unfold tag_ok in X1. destruct (j_layers (s (Datatypes.S (k * w)))) as [|a [|b [|c rest]]]; try discriminate. injection IDS as I1 I2.
    exists a, b. split; [reflexivity|]. split; [exact I1|]. split; [exact I2|]. rewrite (X1 MD), I1, I2. reflexivity. }
  set (tag := ("R_" ++ l_id l0 ++ "_" ++ l_id l1)%string) in *.
  assert (TK : In tag (keys (j_log j'))).
  { rewrite EG. apply keys_push_rows. right. destruct (nth_error rows 0) as [row|] eqn:ER; [|apply nth_error_None in ER; lia]. exists row. split; [eapply nth_error_In; exact ER|].
    destruct (HR2 0%nat row ER) as (rr & Hr & ->). rewrite !map_app, !in_app_iff. right. left. destruct (LK 0%nat P) as (M & a & b & LA & _ & _ & RT).
    rewrite (resistance_keys _ _ Hr), M, LA. left. exact RT. }
  assert (NM' : forall p, mag_name (j_log j') p -> us p = 0%nat -> p <> "R"%string).
  { intros p (key & K & I & ER) U ->. rewrite EG in K. apply keys_push_rows in K. destruct K as [[]|(row & Ir & K)]. apply In_nth_error in Ir. destruct Ir as (i & Hi).
    assert (Li : (i < n)%nat) by (rewrite <- HR1; apply nth_error_Some; congruence). destruct (LK i Li) as (M & a & b & LA & IA & IB & RT).
    destruct (row_key_cases _ _ _ _ _ (HR2 i row Hi) K) as [(l' & V & Hl' & HV & UV & ->)|[H|(_ & _ & ->)]].
    - assert (PI : us (l_id l') = 0%nat /\ l_id l' <> "R"%string) by (rewrite LA in Hl'; destruct Hl' as [<-|[<-|[]]]; [rewrite IA|rewrite IB]; split; try assumption; apply plain_us; assumption).
      pose proof (infix_col "mx" _ V eq_refl (proj1 PI) UV I) as SV. apply (mag_tag true _ _ HV) in SV. subst V. apply (proj2 PI). rewrite (erased_fun _ _ (erased_mx _ (proj1 PI)) _ ER). reflexivity.
    - exact (infix_none "mx" key H I).
    - rewrite RT in ER. pose proof (erased_plain _ _ ER U) as H2.
      destruct ST as [ST|ST].
      + destruct (H2 "R"%string (l_id l0 ++ "_" ++ l_id l1)%string eq_refl) as (y & Ey). destruct ST as (z & Ez). rewrite Ez in Ey. discriminate.
      + destruct (H2 ("R_" ++ l_id l0)%string (l_id l1)) as (y & Ey); [unfold tag; cbn; reflexivity|]. destruct ST as (z & Ez). rewrite Ez in Ey. discriminate. }
  destruct (snoc_cases tag) as [X|(f & c & X)]; [discriminate|].
  apply (unknown_layer S t (j_log j') f "R").
  - exists c. rewrite <- X. split; [exact TK|]. unfold tag. destruct ST as [(z & Ez)|(z & Ez)].
    + rewrite Ez. exists "R"%string, (z ++ "_" ++ l_id l1)%string. reflexivity.
    + rewrite Ez. exists ("R_" ++ l_id l0)%string, z. cbn. reflexivity.
  - apply before_underscore_iff. unfold tag in X. destruct f as [|d f]; [cbn in X; injection X as _ X; discriminate|]. cbn in X. injection X as <- X. cbn [before_underscore].
    replace (Ascii.eqb "R" "_"%char) with false by reflexivity. f_equal. destruct f as [|e f]; [exfalso; cbn in X; injection X as _ X; destruct (l_id l0); discriminate|]. cbn in X. injection X as <- X. reflexivity.
  - intros H. exact (NM' "R"%string H eq_refl eq_refl).
Qed.

(** ** Concrete logs *)
Definition lone_log : log_t := [("free_mx", [1]); ("free_my", [0]); ("free_mz", [0]); ("free_Hiecx", [1]); ("free_Hiecy", [0]); ("free_Hiecz", [0])]%string.
Lemma lone_energy : compute_from_log (EnergyCompute 1 2 lone_log) = Ok [("energy_free_Hiec"%string, [-1 / 2])].
Proof.
  cbn. unfold fdiv. destruct (Req_EM_T (1 * 2) 0) as [X|_]; [lra|]. cbn. unfold c_dot. cbn. f_equal. f_equal. f_equal. f_equal. field.
Qed.
Definition nested_log : log_t := [("a_mx", [1]); ("a_my", [0]); ("a_mz", [0]); ("a_b_mx", [0]); ("a_b_my", [1]); ("a_b_mz", [0]); ("a_b_Hextx", [0]); ("a_b_Hexty", [1]); ("a_b_Hextz", [0])]%string.
Lemma nested_energy : compute_from_log (EnergyCompute 1 1 nested_log) = Ok [("energy_a_b_Hext"%string, [0])].
Proof.
  cbn. unfold fdiv. destruct (Req_EM_T (1 * 1) 0) as [X|_]; [lra|]. cbn. unfold c_dot. cbn. f_equal. f_equal. f_equal. f_equal. field.
Qed.
Definition mixed_log : log_t := [("f_mx", [1; 0]); ("f_my", [0; 1]); ("f_mz", [0; 0]); ("f_Hextx", [1]); ("f_Hexty", [0]); ("f_Hextz", [0])]%string.
Lemma mixed_energy : compute_from_log (EnergyCompute 1 1 mixed_log) = Ok [("energy_f_Hext"%string, [-1; 0])].
Proof.
  cbn. unfold fdiv. destruct (Req_EM_T (1 * 1) 0) as [X|_]; [lra|]. cbn. unfold c_dot. cbn. f_equal. f_equal. f_equal. f_equal; [field|]. f_equal. field.
Qed.
Lemma ex_switch_clear : clear_ids ex_switch_junction.
Proof. split; [|discriminate]. intros id [<-|[]]. apply plain_us. reflexivity. Qed.
Definition ex_hard : junction :=
  JN MR_CLASSIC [ex_layer "Hard" (CV 1 0 0); ex_layer "free" (CV 0 1 0)] 100 200 [] [] [] [] [] [] [] [] 0 "R_Hard_free".
Lemma ex_hard_named : named ex_hard.
Proof. split; [intros _; reflexivity|]. split; [intros _; cbn; lia|]. cbn. constructor; [intros [X|[]]; discriminate|]. constructor; [intros []|constructor]. Qed.
Lemma ex_hard_runs : exists j', runSimulation 1 1 1 true RK4 ex_hard = (j', Ok tt).
Proof.
  apply (run_exists _ _ _ _ _ _ 1 1); [lra|discriminate|discriminate| |lia|].
  - repeat split; try lra; left; cbn; lra.
  - intros l H. cbn in H. destruct H as [<-|[<-|[]]]; (split; [|split; [reflexivity|discriminate]]); intros t m1 b top; apply plain_total; try reflexivity; try (cbn; lra);
    intros s; eexists (FI Zero Zero Zero Zero _ 0 0 0 0 Zero Zero); repeat split.
Qed.
