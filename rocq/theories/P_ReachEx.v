(** A chain of exchange-coupled layers in which a change is felt as far as it can be (C103). *)
From Verif Require Import P_Reach P_RunEx.
From Verif Require Export P_Reach.
Open Scope R_scope.
Open Scope st_scope.

Definition ex_link (id : string) (m : cvec) : layer :=
  set_l_IECTop (cdrv (/ gamma0)) (set_l_IECBottom (cdrv (/ gamma0)) (set_l_mag m (set_l_external null_axial (ex_spin id)))).
Definition ex_chain (m1 m2 m3 : cvec) : junction :=
  JN MR_NONE [ex_link "a" m1; ex_link "b" m2; ex_link "c" m3] 0 0 [] [] [] [] [] [] [] [] 0 "R".
Definition X1 : cvec := CV 1 0 0.
Definition Y1 : cvec := CV 0 1 0.
Definition Z1 : cvec := CV 0 0 1.

Lemma chain_built m1 m2 m3 : Junction_plain [ex_link "a" m1; ex_link "b" m2; ex_link "c" m3] = Ok (ex_chain m1 m2 m3).
Proof. reflexivity. Qed.
Lemma link_rhs id m0 t m b top : rhs (ex_link id m0) t m b top (Cross (Plus b top) m).
Proof.
  set (i := FI Zero Zero Zero Zero 0 (/ gamma0) (/ gamma0) 0 0 Zero Zero). set (l := ex_link id m0).
  assert (H : rhs l t m b top (LLG_plain 0 m (H_eff l i m b top (dipole_total l b top) Zero))).
  { exists i. split; [repeat split|]. split; [cbn; lra|]. split; [cbn; lra|]. apply llg_plain; reflexivity. }
  assert (E : H_eff l i m b top (dipole_total l b top) Zero = Scal (/ gamma0) (Plus b top)).
  { unfold H_eff, IEC_total, IDMI_total, H_anis, dipole_total, H_iec, H_idmi, H_tensor, i, l. destruct m as [ma mb mc], b as [ba bb bc], top as [ta tb tc]. cbn -[Rmult Rplus Rdiv Rinv gamma0 mu0 Ropp].
    unfold Rdiv. vsimp. cbn -[Rmult Rplus Rdiv Rinv gamma0 mu0 Ropp]. rewrite ?Rinv_1, ?Rmult_1_r, ?Rmult_1_l. apply vec_eq; cbn -[Rmult Rplus Rdiv Rinv gamma0 mu0 Ropp]; rewrite ?Rinv_1, ?Rmult_1_r; ring. }
  rewrite E in H. replace (Cross (Plus b top) m) with (LLG_plain 0 m (Scal (/ gamma0) (Plus b top))); [exact H|].
  unfold LLG_plain, prefactor, LL. destruct m as [ma mb mc], b as [ba bb bc], top as [ta tb tc]. vsimp. unfold gamma0. apply vec_eq; cbn [cx cy cz]; field.
Qed.
Lemma link_total id m : total_layer (ex_link id m).
Proof. intros t m' b top. eexists. apply link_rhs. Qed.
Lemma link_runnable id m : runnable (ex_link id m).
Proof. split; [apply link_total|]. split; [reflexivity|discriminate]. Qed.
Lemma link_quiet id m : quiet (ex_link id m).
Proof. split; reflexivity. Qed.
Lemma chain_runs T dt wf e mode m1 m2 m3 N w : 0 <= dt -> step_counts T dt wf N w -> (w > 0)%nat -> exists j', runSimulation T dt wf e mode (ex_chain m1 m2 m3) = (j', Ok tt).
Proof.
  intros Hd HC Hw. apply (run_exists _ _ _ _ _ _ N w); [exact Hd|discriminate|discriminate|exact HC|exact Hw|]. intros l [<-|[<-|[<-|[]]]]; apply link_runnable.
Qed.
Lemma chain_steps r t dt m1 m2 m3 : 0 <= dt -> exists j', run_runner r t dt (ex_chain m1 m2 m3) = (j', Ok tt).
Proof.
  intros Hd. apply step_total; [discriminate|exact Hd|]. intros l Hl. split.
  - destruct Hl as [<-|[<-|[<-|[]]]]; apply link_total.
  - intros s. exists Zero. apply quiet_noise; [|reflexivity]. destruct Hl as [<-|[<-|[<-|[]]]]; apply link_quiet.
Qed.
Lemma chain_near m1 m2 m3 n2 n3 d : (m2 = n2 \/ d = 0%nat) -> (d <= 1)%nat -> agree_near d 0 (ex_chain m1 m2 m3) (ex_chain m1 n2 n3).
Proof.
  intros H Hd q [A B]. destruct q as [|[|q]]; [apply alike_refl| |lia]. destruct H as [->| ->]; [apply alike_refl|lia].
Qed.
Lemma quiet_zero l t w : quiet l -> noise_spec l t w -> w = Zero.
Proof. intros Q N. apply (quiet_noise l t w Q), N. Qed.

(** The lowest layer after one step of unit length. *)
Definition lowest (j : junction) : cvec := nth 0 (mags (j_layers j)) Zero.
Lemma lowest_differs a b : lowest a <> lowest b -> ~ agree_near 0 0 a b.
Proof. intros H X. apply near_self, alike_at_mag in X. apply H. symmetry. exact X. Qed.
Lemma first_layer P a b l : stepwise P a b -> nth_error (j_layers a) 0 = Some l -> exists l', nth_error (j_layers b) 0 = Some l' /\ P 0%nat l l' /\ lowest b = l_mag l'.
Proof.
  intros (_ & L & H) E. destruct (nth_error_same_length _ _ _ _ L E) as [l' E']. exists l'. split; [exact E'|]. split; [apply H; assumption|].
  unfold lowest, mags. rewrite (nth_error_nth _ _ _ (map_nth_error l_mag _ _ E')). reflexivity.
Qed.
Lemma link_rhs_eq id m0 t m b top d : rhs (ex_link id m0) t m b top d -> d = Cross (Plus b top) m.
Proof. intros H. exact (rhs_unique _ _ _ _ _ _ _ H (link_rhs id m0 t m b top)). Qed.
Lemma rk4_lowest t m2 m3 j' : runMultiLayerSolver t 1 (ex_chain X1 m2 m3) = (j', Ok tt) ->
  let F m := Cross m2 m in
  let f1 := F X1 in let f2 := F (Plus X1 (Scal (1 / 2) f1)) in let f3 := F (Plus X1 (Scal (1 / 2) f2)) in let f4 := F (Plus X1 (Scal 1 f3)) in
  Normalised (Plus X1 (Scal (1 / 6) (Sum [f1; Scal 2 f2; Scal 2 f3; f4]))) (lowest j').
Proof.
  intros E F f1 f2 f3 f4. apply multi_sound in E. destruct (first_layer _ _ _ _ E eq_refl) as (l' & _ & (S & _) & ->).
  destruct S as (g1 & g2 & g3 & g4 & A1 & A2 & A3 & A4 & A5). apply link_rhs_eq in A1, A2, A3, A4.
  change (below _ 0) with Zero in *. change (above (mags (j_layers (ex_chain X1 m2 m3))) 0) with m2 in *. change (l_mag (ex_link "a" X1)) with X1 in *.
  assert (Z : Plus Zero m2 = m2) by (destruct m2; vsimp; apply vec_eq; cbn; ring). rewrite Z in *.
  subst g1. subst g2. subst g3. subst g4. exact A5.
Qed.
Lemma eh_lowest t m2 m3 j' : eulerHeunSolverStep t 1 (ex_chain X1 m2 m3) = (j', Ok tt) -> Normalised (Plus X1 (Cross m2 X1)) (lowest j').
Proof.
  intros E. apply eh_sound in E. destruct (first_layer _ _ _ _ E eq_refl) as (l' & _ & (w & c & N & S & _) & ->).
  apply quiet_zero in N; [|apply link_quiet]. subst w. destruct S as (_ & f & A & B). apply link_rhs_eq in A. cbv beta zeta in B. rewrite !plain_no_field in B.
  change (below _ 0) with Zero in *. change (above (mags (j_layers (ex_chain X1 m2 m3))) 0) with m2 in *. change (l_mag (ex_link "a" X1)) with X1 in *.
  subst f. match type of B with Normalised ?u _ => replace u with (Plus X1 (Cross m2 X1)) in B; [exact B|] end.
  destruct m2 as [a b d]. unfold X1. vsimp. apply vec_eq; cbn; ring.
Qed.
Lemma heun_lowest t m2 m3 j' : heunSolverStep t 1 (ex_chain X1 m2 m3) = (j', Ok tt) ->
  let p1 := Plus X1 (Cross m2 X1) in let p2 := Plus m2 (Cross (Plus X1 m3) m2) in
  Normalised (Plus X1 (Scal (1 / 2) (Plus (Cross m2 X1) (Cross p2 p1)))) (lowest j').
Proof.
  intros E p1 p2. apply heun_sound in E. destruct E as (ws & ps & LW & LP & E). pose proof E as (_ & L & HP).
  assert (P2 : nth_error ps 1 = Some p2).
  { assert (EL : nth_error (j_layers (ex_chain X1 m2 m3)) 1 = Some (ex_link "b" m2)) by reflexivity.
    destruct (nth_error_same_length _ _ _ _ L EL) as [k Hk]. destruct (HP _ _ _ EL Hk) as (w & q & c & _ & Q & N & (_ & f & A & ->) & _).
    rewrite Q. f_equal. apply quiet_zero in N; [|apply link_quiet]. subst w. rewrite plain_no_field. apply link_rhs_eq in A.
    change (below (mags (j_layers (ex_chain X1 m2 m3))) 1) with X1 in A. change (above (mags (j_layers (ex_chain X1 m2 m3))) 1) with m3 in A. change (l_mag (ex_link "b" m2)) with m2 in *.
    subst f. unfold p2. destruct m2 as [a b d], m3 as [x y z]. unfold X1. vsimp. apply vec_eq; cbn; ring. }
  destruct (first_layer _ _ _ _ E eq_refl) as (l' & _ & (w & q & c & _ & Q & N & (_ & f & A & ->) & (g & g' & B & B' & C) & _) & ->).
  apply quiet_zero in N; [|apply link_quiet]. subst w. rewrite !plain_no_field in C. rewrite plain_no_field in B'. apply link_rhs_eq in A, B, B'.
  change (below _ 0) with Zero in *. change (above (mags (j_layers (ex_chain X1 m2 m3))) 0) with m2 in *. change (l_mag (ex_link "a" X1)) with X1 in *.
  unfold above in B'. rewrite (nth_error_nth _ _ _ P2) in B'. subst f g g'.
  match type of C with Normalised ?u _ => match goal with |- Normalised ?v _ => replace v with u; [exact C|] end end.
  unfold p1, p2. destruct m2 as [a b d], m3 as [x y z]. unfold X1. vsimp. apply vec_eq; cbn; field.
Qed.
Lemma normalised_factor v u : Normalised v u -> v <> Zero -> exists k, k <> 0 /\ u = Scal k v.
Proof. intros [[H _]|[_ ->]] N; [contradiction|]. exists (/ Norm v). split; [|reflexivity]. apply Rinv_neq_0_compat. intros X. apply N, Norm_zero_iff, X. Qed.
Lemma runner_multi t dt j : run_runner RunMulti t dt j = runMultiLayerSolver t dt j. Proof. reflexivity. Qed.
Lemma runner_heun t dt j : run_runner RunHeun t dt j = heunSolverStep t dt j. Proof. reflexivity. Qed.
Lemma runner_eh t dt j : run_runner RunEulerHeun t dt j = eulerHeunSolverStep t dt j. Proof. reflexivity. Qed.
(** Two states that differ at the edge of what one step can reach end in different places. *)
Lemma reach_sharp r : r <> RunSingle -> exists a b a' b', Junction_plain (j_layers a) = Ok a /\ Junction_plain (j_layers b) = Ok b /\ agree_near (reach r - 1) 0 a b /\
  run_runner r 0 1 a = (a', Ok tt) /\ run_runner r 0 1 b = (b', Ok tt) /\ ~ agree_near 0 0 a' b'.
Proof.
  intros HR. assert (D : 0 <= 1) by lra.
  destruct r; [contradiction| | |]; cbn [reach].
  - exists (ex_chain X1 X1 X1), (ex_chain X1 Y1 X1). destruct (chain_steps RunMulti 0 1 X1 X1 X1 D) as [a' A], (chain_steps RunMulti 0 1 X1 Y1 X1 D) as [b' B].
    exists a', b'. split; [reflexivity|]. split; [reflexivity|]. split; [apply chain_near; auto|]. split; [exact A|]. split; [exact B|]. apply lowest_differs. intros E.
    rewrite runner_multi in A, B. apply rk4_lowest in A, B. cbv zeta in A, B. rewrite <- E in B.
    apply normalised_factor in A; [|unfold X1, Y1; vsimp; intros X; injection X; intros; lra]. destruct A as (k & _ & A). rewrite A in B.
    apply normalised_factor in B; [|unfold X1, Y1; vsimp; intros X; injection X; intros; lra]. destruct B as (k' & K & B). apply (f_equal cz) in B.
    unfold X1, Y1 in B. cbn in B. apply K. clear - B. lra.
  - exists (ex_chain X1 Y1 Y1), (ex_chain X1 Y1 Z1). destruct (chain_steps RunHeun 0 1 X1 Y1 Y1 D) as [a' A], (chain_steps RunHeun 0 1 X1 Y1 Z1 D) as [b' B].
    exists a', b'. split; [reflexivity|]. split; [reflexivity|]. split; [apply chain_near; auto|]. split; [exact A|]. split; [exact B|]. apply lowest_differs. intros E.
    rewrite runner_heun in A, B. apply heun_lowest in A, B. cbv zeta in A, B. rewrite <- E in B.
    apply normalised_factor in A; [|unfold X1, Y1; vsimp; intros X; injection X; intros; lra]. destruct A as (k & K & A). rewrite A in B.
    apply normalised_factor in B; [|unfold X1, Y1, Z1; vsimp; intros X; injection X; intros; lra]. destruct B as (k' & _ & B). apply (f_equal cy) in B.
    unfold X1, Y1, Z1 in B. cbn in B. apply K. clear - B. lra.
  - exists (ex_chain X1 X1 X1), (ex_chain X1 Y1 X1). destruct (chain_steps RunEulerHeun 0 1 X1 X1 X1 D) as [a' A], (chain_steps RunEulerHeun 0 1 X1 Y1 X1 D) as [b' B].
    exists a', b'. split; [reflexivity|]. split; [reflexivity|]. split; [apply chain_near; auto|]. split; [exact A|]. split; [exact B|]. apply lowest_differs. intros E.
    rewrite runner_eh in A, B. apply eh_lowest in A, B. rewrite <- E in B.
    apply normalised_factor in A; [|unfold X1, Y1; vsimp; intros X; injection X; intros; lra]. destruct A as (k & _ & A). rewrite A in B.
    apply normalised_factor in B; [|unfold X1, Y1; vsimp; intros X; injection X; intros; lra]. destruct B as (k' & K & B). apply (f_equal cz) in B.
    unfold X1, Y1 in B. cbn in B. apply K. clear - B. lra.
Qed.
