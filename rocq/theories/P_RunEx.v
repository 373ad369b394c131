(** Runs that succeed, used as witnesses beside the theorems. *)
From Verif Require Export P_Quiet.
Open Scope R_scope.
Open Scope st_scope.

Definition runnable (l : layer) : Prop :=
  total_layer l /\ l_nScale l = 0 /\ (l_temperatureSet l = true -> forall t, exists sd, thermal_sd l t sd).
Lemma static_runnable l l' : static l l' -> runnable l -> runnable l'.
Proof.
  intros S (H1 & H2 & H3). split; [|split].
  - intros t m b top. destruct (H1 t m b top) as [d Hd]. exists d. eapply static_rhs; eassumption.
  - destruct S as (m & c & rp & bf & ->). exact H2.
  - intros HT t. assert (X : l_temperatureSet l = true) by (destruct S as (m & c & rp & bf & ->); exact HT).
    destruct (H3 X t) as [sd Hsd]. exists sd. apply (static_sd _ _ _ _ S), Hsd.
Qed.
Lemma runnable_noise l : runnable l -> noisy_total l.
Proof.
  intros (_ & H2 & H3) t.
  assert (X : exists v, thermal_part l t v).
  { unfold thermal_part. destruct (l_temperatureSet l); [|eexists; reflexivity]. destruct (H3 eq_refl t) as [sd Hsd]. eexists. exists sd. split; [exact Hsd|reflexivity]. }
  destruct X as [v Hv]. exists (Plus v Zero), v, Zero. split; [exact Hv|]. split; [left; auto|reflexivity].
Qed.
Lemma run_exists T dt wf e mode j N w : 0 <= dt -> j_layers j <> [] -> j_mode j <> MR_STRIP -> step_counts T dt wf N w -> (w > 0)%nat ->
  (forall l, In l (j_layers j) -> runnable l) -> exists j', runSimulation T dt wf e mode j = (j', Ok tt).
Proof.
  intros Hd HN HM HC Hw HR.
  assert (HS : exists r used, selects mode N j j r used).
  { destruct (noisy_list_dec (j_layers j)) as [Hn|Hn]; eexists.
    - exists (match mode with HEUN => HEUN | _ => EULER_HEUN end). split; [intros l Hl; left; apply (HR l Hl)|]. split; [|split; [split; tauto|reflexivity]].
      rewrite <- set_layers_id at 1. f_equal. rewrite <- (map_id (j_layers j)) at 1. apply map_ext_in. intros l Hl. unfold prepared.
      destruct (Req_EM_T (l_nScale l) 0) as [|X]; [reflexivity|]. exfalso. apply X, (HR l Hl).
    - exists mode. split; [intros l Hl; left; apply (HR l Hl)|]. split; [|split; [split; tauto|reflexivity]].
      rewrite <- set_layers_id at 1. f_equal. rewrite <- (map_id (j_layers j)) at 1. apply map_ext_in. intros l Hl. unfold prepared.
      destruct (Req_EM_T (l_nScale l) 0) as [|X]; [reflexivity|]. exfalso. apply X, (HR l Hl). }
  destruct HS as (r & used & HS).
  assert (TR : forall M, exists s, s 0%nat = j /\ trajectory r dt s M).
  { induction M as [|M (s & H0 & HT)]; [exists (fun _ => j); split; [reflexivity|intros k Hk; lia]|].
    pose proof (traj_static _ _ _ _ M HT (le_n M)) as HW. rewrite H0 in HW.
    destruct (step_total r (INR M * dt) dt (s M)) as (j1 & E1); [|exact Hd| |].
    - destruct HW as (_ & L & _). intros X. rewrite X in L. destruct (j_layers j); [contradiction|discriminate].
    - intros l Hl. apply In_nth_error in Hl. destruct Hl as [p Hp]. destruct HW as (_ & L & P).
      destruct (nth_error_same_length _ _ _ _ (eq_sym L) Hp) as [l0 Hl0]. assert (RR : runnable l) by (apply (static_runnable l0 l); [exact (P _ _ _ Hl0 Hp)|apply HR; eapply nth_error_In; exact Hl0]).
      split; [apply RR|apply runnable_noise, RR].
    - exists (fun k => if Nat.leb k M then s k else j1). split; [cbn; exact H0|]. intros k Hk.
      destruct (Nat.eq_dec k M) as [->|Hne].
      + rewrite (proj2 (Nat.leb_le M M)) by lia. rewrite (proj2 (Nat.leb_gt (S M) M)) by lia. exact E1.
      + rewrite (proj2 (Nat.leb_le k M)) by lia. rewrite (proj2 (Nat.leb_le (S k) M)) by lia. apply HT. lia. }
  destruct (TR N) as (s & H0 & HT). refine (run_complete _ _ _ e mode j N w j r used s HC HS Hw (fun X => False_ind _ (HM X)) H0 HT _).
  intros k Hk. assert (Hk' : (S (k * w) <= N)%nat) by (apply (row_in_run N w k (or_intror Hw)); exact Hk).
  assert (Hmode : j_mode (s (S (k * w))) = j_mode j).
  { pose proof (traj_static _ _ _ _ _ HT Hk') as HW. rewrite H0 in HW. destruct (stepwise_shape _ _ HW) as (_ & X & _). exact X. }
  unfold log_row, resistance_row. destruct (j_mode (s (S (k * w)))); [|destruct (j_layers (s (S (k * w)))) as [|? [|? ?]]|congruence];
  eexists; eexists; (split; [reflexivity|reflexivity]).
Qed.
Lemma counts_10_2 : step_counts 10 1 2 10 2.
Proof. repeat split; try lra; left; cbn; lra. Qed.
Lemma ex_pair_runnable J h l : In l (ex_pair J h) -> runnable l.
Proof.
  intros H. split; [apply (ex_pair_total J h l H)|]. cbn in H. destruct H as [<-|[<-|[]]]; (split; [reflexivity|discriminate]).
Qed.
Lemma ex_junction_runs e mode J h : exists j', runSimulation 10 1 2 e mode (ex_junction J h) = (j', Ok tt).
Proof. apply (run_exists _ _ _ _ _ _ 10 2); [lra|discriminate|discriminate|exact counts_10_2|lia|apply ex_pair_runnable]. Qed.
Lemma ex_junction_named J h : named (ex_junction J h).
Proof.
  split; [|split].
  - cbn. intros _. reflexivity.
  - intros _. cbn. lia.
  - cbn. constructor; [|constructor; [intros []|constructor]]. intros [X|[]]. discriminate.
Qed.
(** A warm layer with spin-orbit torque and a pinned reference. *)
Definition ex_hot (id : string) : layer :=
  set_l_temperature (cdrv 300) (set_l_temperatureSet true (set_l_includeSOT true (set_l_dlDriver (cdrv 5)
    (set_l_reference (CV 0 1 0) (set_l_refType RFIXED (ex_layer id (CV 1 0 0))))))).
Definition ex_hot_junction : junction := JN MR_CLASSIC [ex_hot "free"] 100 200 [] [] [] [] [] [] [] [] 0 "R".
Lemma ex_hot_constructed : Junction_classic [ex_hot "free"] 100 200 = Ok ex_hot_junction.
Proof.
  unfold Junction_classic. rewrite vlength_Norm. destruct (Req_EM_T _ 0) as [E|_]; [|reflexivity].
  apply Norm_zero_iff in E. cbn in E. unfold Zero in E. injection E. lra.
Qed.
Lemma ex_hot_runnable id : runnable (ex_hot id).
Proof.
  split; [|split; [reflexivity|]].
  - intros t m b top. eexists. exists (FI Zero Zero Zero Zero 0 0 0 0 0 Zero Zero). split; [repeat split|].
    split; [cbn; lra|]. split; [cbn; lra|]. apply (llg_sot_dynamic _ _ _ _ _ _ 5 0); reflexivity.
  - intros _ t. eexists. split; [cbn; lra|]. exists 300. split; [reflexivity|]. split; [cbn; lra|]. split; [|reflexivity].
    cbn [ex_hot ex_layer l_damping l_Ms l_cellVolume set_l_temperature set_l_temperatureSet set_l_includeSOT set_l_dlDriver set_l_reference set_l_refType].
    apply Rlt_le, Rdiv_lt_0_compat; unfold kB, gamma0; lra.
Qed.
Lemma ex_hot_runs e mode : exists j', runSimulation 10 1 2 e mode ex_hot_junction = (j', Ok tt).
Proof.
  apply (run_exists _ _ _ _ _ _ 10 2); [lra|discriminate|discriminate|exact counts_10_2|lia|].
  intros l [<-|[]]. apply ex_hot_runnable.
Qed.
Lemma ex_hot_named : named ex_hot_junction.
Proof. split; [exact I|]. split; [intros _; cbn; lia|]. cbn. constructor; [intros []|constructor]. Qed.
(** A strip of two layers. *)
Definition ex_strip : junction :=
  JN MR_STRIP (ex_pair 0 Zero) 0 0 [100; 200] [50; 60] [10; 10] [5; 5] [1; 1] [2; 2] [3; 3] [] 0 "R".
Lemma ex_strip_constructed : Junction_strip (ex_pair 0 Zero) [100; 200] [50; 60] [10; 10] [5; 5] [1; 1] [2; 2] [3; 3] = Ok ex_strip.
Proof. reflexivity. Qed.
Lemma ex_strip_positive x : In x (mapi (strip_long ex_strip) 0 (j_layers ex_strip)) \/ In x (mapi (strip_trans ex_strip) 0 (j_layers ex_strip)) -> 0 < x.
Proof.
  intros [H|H]; cbn -[Rmult Rplus Rdiv] in H; destruct H as [<-|[<-|[]]]; unfold strip_long, strip_trans; cbn -[Rmult Rplus Rdiv]; lra.
Qed.
(** A pinned layer whose reference vector has length two: the resistance leaves the [Rp, Rap] range. *)
Definition ex_long : junction :=
  JN MR_CLASSIC [set_l_reference (CV 0 (-2) 0) (set_l_refType RFIXED (ex_layer "free" (CV 0 1 0)))] 100 200 [] [] [] [] [] [] [] [] 0 "R".
Lemma ex_long_range : exists j l r, Junction_classic [l] 100 200 = Ok j /\ Unit (l_mag l) /\ getMagnetoresistance j = Ok [r] /\ r > 200.
Proof.
  exists ex_long. eexists. eexists. split; [|split; [|split]].
  - unfold Junction_classic, ex_long.
    instantiate (1 := set_l_reference (CV 0 (-2) 0) (set_l_refType RFIXED (ex_layer "free" (CV 0 1 0)))).
    rewrite vlength_Norm. destruct (Req_EM_T _ 0) as [E|_]; [|reflexivity]. apply Norm_zero_iff in E. cbn in E. unfold Zero in E. injection E. lra.
  - unfold Unit. cbn. vsimp. ring.
  - apply (pinned_resistance ex_long); reflexivity.
  - unfold GMR. cbn -[Rmult Rplus Rdiv Rminus Dot]. vsimp. lra.
Qed.
(** Two layers with the same id share their columns. *)
Definition ex_twins : junction := JN MR_NONE [ex_layer "free" (CV 1 0 0); ex_layer "free" (CV 0 1 0)] 0 0 [] [] [] [] [] [] [] [] 0 "R".
Lemma ex_twins_runs : exists j', runSimulation 1 1 1 false RK4 ex_twins = (j', Ok tt).
Proof.
  apply (run_exists _ _ _ _ _ _ 1 1); [lra|discriminate|discriminate| |lia|].
  - repeat split; try lra; left; cbn; lra.
  - intros l Hl. assert (X : forall id m, runnable (ex_layer id m)).
    { intros id m. split; [|split; [reflexivity|discriminate]]. intros t m1 b top. apply plain_total; try reflexivity; try (cbn; lra).
      intros s. exists (FI Zero Zero Zero Zero 0 0 0 0 0 Zero Zero). repeat split. }
    destruct Hl as [<-|[<-|[]]]; apply X.
Qed.
Lemma twins_misaligned : exists ls j j', Junction_plain ls = Ok j /\ runSimulation 1 1 1 false RK4 j = (j', Ok tt) /\
  j_logLength j' = 1%nat /\ length (col "free_mx" (j_log j')) = 2%nat /\ length (col "time" (j_log j')) = 1%nat.
Proof.
  destruct ex_twins_runs as [j' E]. exists [ex_layer "free" (CV 1 0 0); ex_layer "free" (CV 0 1 0)], ex_twins, j'.
  split; [reflexivity|]. split; [exact E|].
  destruct (run_sound _ _ _ _ _ _ _ E) as (N & w & j0 & r & used & s & rows & HC & HS & H0 & Htr & Hw & [HR1 HR2] & Ej & Hcol).
  assert (HN : N = 1%nat /\ w = 1%nat).
  { destruct HC as (_ & _ & A & B & _). destruct A as [A|[A _]]; [|lra]. destruct B as [B|[B _]]; [|lra].
    assert (X : forall n, INR n <= 1 / 1 < INR n + 1 -> n = 1%nat).
    { intros [|[|n]] H; [cbn in H; lra|reflexivity|]. rewrite !S_INR in H. assert (Y := pos_INR n). lra. }
    split; apply X; assumption. }
  destruct HN as [-> ->]. cbn in HR1. destruct rows as [|row [|? ?]]; try discriminate.
  assert (EL : j_logLength j0 = 0%nat /\ j_log j0 = []) by (destruct HS as (_ & -> & _); split; reflexivity). destruct EL as [EL1 EL2].
  split; [rewrite Ej; cbn; rewrite EL1; reflexivity|]. specialize (HR2 0%nat row eq_refl).
  assert (EI : exists a b, j_layers (s 1%nat) = [a; b] /\ l_id a = "free"%string /\ l_id b = "free"%string).
  { pose proof (traj_static _ _ _ _ 1 Htr (le_n 1)) as HW. rewrite H0 in HW.
    destruct (stepwise_shape _ _ HW) as (X & _ & _). pose proof (selects_shape _ _ _ _ _ _ HS) as (Y & _ & _). rewrite Y in X. unfold ids in X. cbn in X.
    destruct (j_layers (s 1%nat)) as [|a [|b [|? ?]]]; try discriminate. cbn in X. injection X as X1 X2. exists a, b. auto. }
  destruct EI as (a & b & EI & Ha & Hb). destruct HR2 as (rr & Hr & Hrow). cbn [Nat.mul] in *.
  assert (EM : j_mode (s 1%nat) = MR_NONE).
  { pose proof (traj_static _ _ _ _ 1 Htr (le_n 1)) as HW. rewrite H0 in HW. destruct (stepwise_shape _ _ HW) as (_ & X & _).
    pose proof (selects_shape _ _ _ _ _ _ HS) as (_ & Y & _). rewrite X, Y. reflexivity. }
  unfold resistance_row in Hr. rewrite EM in Hr. assert (rr = []) by (destruct (j_layers (s 1%nat)); exact Hr). subst rr.
  rewrite EI in Hrow. cbn [flat_map] in Hrow. rewrite !layer_row_tags, Ha, Hb in Hrow.
  rewrite !Hcol, EL2, Hrow. split; reflexivity.
Qed.
(** Two layers that start with the same stream and position receive the same thermal numbers at every step of every run. *)
Lemma shared_noise T dt wf e mode j j' p q a b : runSimulation T dt wf e mode j = (j', Ok tt) ->
  nth_error (j_layers j) p = Some a -> nth_error (j_layers j) q = Some b ->
  l_temperatureSet a = true -> l_temperatureSet b = true -> l_rng a = l_rng b -> l_rpos a = l_rpos b ->
  exists N w j0 r used s, step_counts T dt wf N w /\ selects mode N j j0 r used /\ s 0%nat = j0 /\ trajectory r dt s N /\
    forall k, (k <= N)%nat -> exists ak bk, nth_error (j_layers (s k)) p = Some ak /\ nth_error (j_layers (s k)) q = Some bk /\
      forall t va vb, thermal_part ak t va -> thermal_part bk t vb ->
        exists sa sb g, va = Scal sa g /\ vb = Scal sb g /\ thermal_sd a t sa /\ thermal_sd b t sb.
Proof.
  intros E Ha Hb Ta Tb Er Ep.
  destruct (run_sound _ _ _ _ _ _ _ E) as (N & w & j0 & r & used & s & rows & HC & HS & H0 & Htr & _).
  exists N, w, j0, r, used, s. repeat (split; [assumption|]). intros k Hk.
  destruct (thermal_at mode N j j0 r used dt s p a k HS H0 Htr Ha Ta Hk) as (ak & Hak & Fa).
  destruct (thermal_at mode N j j0 r used dt s q b k HS H0 Htr Hb Tb Hk) as (bk & Hbk & Fb).
  exists ak, bk. split; [exact Hak|]. split; [exact Hbk|]. intros t va vb Va Vb.
  apply Fa in Va. apply Fb in Vb. destruct Va as (sa & Sa & ->), Vb as (sb & Sb & ->).
  exists sa, sb, (gaussians a k). split; [reflexivity|]. split; [|split; assumption].
  unfold gaussians. rewrite Er, Ep. reflexivity.
Qed.
Lemma rows_needed_least N w : (w > 0)%nat ->
  (N <= rows_needed N w * w)%nat /\ forall m, (N <= m * w)%nat -> (rows_needed N w <= m)%nat.
Proof.
  intros Hw. unfold rows_needed.
  assert (A := Nat.div_mod (N + w - 1) w ltac:(lia)). assert (B := Nat.mod_upper_bound (N + w - 1) w ltac:(lia)). split.
  - nia.
  - intros m Hm. apply Nat.lt_succ_r. apply Nat.div_lt_upper_bound; nia.
Qed.
Definition as_rk4 (m : solver_mode) : solver_mode := match m with DORMAND_PRICE => RK4 | _ => m end.
Definition map_res {A B} (f : A -> B) (r : result A) : result B := match r with Ok a => Ok (f a) | Err e => Err e end.
Lemma dormand_loop N ls : forall m, getSolver_loop (as_rk4 m) N ls =
  (fst (getSolver_loop m N ls), map_res as_rk4 (snd (getSolver_loop m N ls))).
Proof.
  induction ls as [|l ls IH]; intros m; cbn [getSolver_loop]; [reflexivity|].
  replace (if l_temperatureSet l then if is_stochastic_mode (as_rk4 m) then as_rk4 m else EULER_HEUN else as_rk4 m)
    with (as_rk4 (if l_temperatureSet l then if is_stochastic_mode m then m else EULER_HEUN else m))
    by (destruct (l_temperatureSet l), m; reflexivity).
  set (m1 := if l_temperatureSet l then _ else m). clearbody m1.
  destruct (Req_EM_T _ _).
  - rewrite (IH m1). destruct (getSolver_loop m1 N ls). reflexivity.
  - replace (if is_stochastic_mode (as_rk4 m1) then as_rk4 m1 else EULER_HEUN)
      with (as_rk4 (if is_stochastic_mode m1 then m1 else EULER_HEUN)) by (destruct m1; reflexivity).
    set (m2 := if is_stochastic_mode m1 then _ else _). clearbody m2.
    destruct (createBufferedAlphaNoise N l) as [l' [u|er]]; [|reflexivity].
    rewrite (IH m2). destruct (getSolver_loop m2 N ls). reflexivity.
Qed.
Lemma dormand_is_rk4 T dt wf e j : runSimulation T dt wf e DORMAND_PRICE j = runSimulation T dt wf e RK4 j.
Proof.
  unfold runSimulation. destruct (Rlt_dec wf dt); [reflexivity|]. unfold bind, lift.
  destruct (fdiv T dt) as [q1|]; [|reflexivity]. destruct (to_unsigned q1) as [n1|]; [|reflexivity].
  destruct (fdiv wf dt) as [q2|]; [|reflexivity]. destruct (to_unsigned q2) as [n2|]; [|reflexivity].
  unfold getSolver. change RK4 with (as_rk4 DORMAND_PRICE). rewrite dormand_loop.
  destruct (getSolver_loop DORMAND_PRICE n1 (j_layers j)) as [ls [m|er]]; [|reflexivity]. cbn [fst snd map_res].
  destruct m; reflexivity.
Qed.
Lemma ex_selects : selects RK4 10 ex_hot_junction ex_hot_junction RunEulerHeun EULER_HEUN /\
  selects DORMAND_PRICE 10 (ex_junction 3 Zero) (ex_junction 3 Zero) RunMulti DORMAND_PRICE.
Proof.
  split; (split; [|split; [|split; [split|reflexivity]]]).
  - intros l [<-|[]]. left. reflexivity.
  - cbn. unfold prepared. destruct (Req_EM_T _ _) as [|X]; [reflexivity|]. exfalso. apply X. reflexivity.
  - reflexivity.
  - intros X. exfalso. apply X. eexists. split; [left; reflexivity|left; reflexivity].
  - intros l [<-|[<-|[]]]; left; reflexivity.
  - cbn. unfold prepared. repeat match goal with |- context [Req_EM_T ?a ?b] => destruct (Req_EM_T a b) as [|X]; [|exfalso; apply X; reflexivity] end.
    reflexivity.
  - intros (l & [<-|[<-|[]]] & [X|X]); try discriminate; exfalso; apply X; reflexivity.
  - reflexivity.
Qed.
Lemma ex_two_hot e mode : exists j j', Junction_plain [ex_hot "a"; ex_hot "b"] = Ok j /\
  runSimulation 10 1 2 e mode j = (j', Ok tt) /\ l_temperatureSet (ex_hot "a") = true /\
  l_rng (ex_hot "a") = l_rng (ex_hot "b") /\ l_rpos (ex_hot "a") = l_rpos (ex_hot "b").
Proof.
  destruct (run_exists 10 1 2 e mode (JN MR_NONE [ex_hot "a"; ex_hot "b"] 0 0 [] [] [] [] [] [] [] [] 0 "R") 10 2) as [j' E];
    [lra|discriminate|discriminate|exact counts_10_2|lia| |].
  - intros l [<-|[<-|[]]]; apply ex_hot_runnable.
  - do 2 eexists. split; [|split; [exact E|repeat split]]. reflexivity.
Qed.
