(** A strip of one layer that runs, used in the examples of C108 and C109. *)
From Verif Require Import P_ReachEx P_RunProps.
From Verif Require Export P_ReachEx.
From Coq Require Import Lra.
Open Scope R_scope.
Open Scope st_scope.

Definition ex_bar (l : layer) : junction := JN MR_STRIP [l] 0 0 [1] [1] [0] [0] [0] [0] [0] [] 0 "R".
Lemma bar_runs : exists j', runSimulation 1 1 1 true RK4 (ex_bar (ex_link "a" X1)) = (j', Ok tt).
Proof.
  set (l := ex_link "a" X1).
  destruct (step_total RunSingle (INR 0 * 1) 1 (ex_bar l)) as [j1 E1]; [discriminate|lra| |].
  { intros x [<-|[]]. split; [apply link_total|]. intros s. exists Zero. apply quiet_noise; [apply link_quiet|reflexivity]. }
  apply (run_complete 1 1 1 true RK4 (ex_bar l) 1 1 (ex_bar l) RunSingle RK4 (fun k => match k with O => ex_bar l | _ => j1 end) counts_1_1); [|lia|intros _; repeat split|reflexivity| |].
  - split; [intros x [<-|[]]; left; reflexivity|]. split; [cbn [j_layers ex_bar map]; unfold prepared; destruct (Req_EM_T (l_nScale l) 0) as [|X]; [reflexivity|contradiction X; reflexivity]|].
    split; [split; [intros (x & [<-|[]] & [Y|Y]); [discriminate|contradiction Y; reflexivity]|reflexivity]|reflexivity].
  - intros [|k] Hk; [exact E1|lia].
  - intros k Hk. replace k with 0%nat by (cbn in Hk; lia). cbn [Nat.mul].
    assert (W : j1 = set_j_layers (j_layers j1) (ex_bar l) /\ length (j_layers j1) = 1%nat) by (destruct (step_static _ _ _ _ _ E1) as (A & B & _); auto).
    destruct W as [W1 W2]. destruct (j_layers j1) as [|x [|? ?]] eqn:EL; try discriminate.
    destruct (parallel_exists (mapi (strip_long j1) 0 [x])) as [rx X]; [|discriminate|].
    { intros y [<-|[]]. unfold strip_long. rewrite W1. cbn. lra. }
    destruct (parallel_exists (mapi (strip_trans j1) 0 [x])) as [ry Y]; [|discriminate|].
    { intros y [<-|[]]. unfold strip_trans. rewrite W1. cbn. lra. }
    eexists. eexists. split; [|reflexivity]. unfold resistance_row. rewrite EL. replace (j_mode j1) with MR_STRIP by (rewrite W1; reflexivity). exists rx, ry. split; [exact X|]. split; [exact Y|reflexivity].
Qed.
