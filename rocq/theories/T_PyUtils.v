(** C47-C49: root finder, distribution of tasks, coordinate descent. *)
From Verif Require P_Drivers.
From Verif Require Import P_PyUtils.
From Coq Require Import Psatz.
Open Scope R_scope.
Open Scope st_scope.

(** ** C47 *)
(** What one call of find does to the roots found so far. *)
Theorem c47_find : forall fr s s' rs, find fr s = (s', Ok rs) <->
  rf_step s <> 0 /\ s' = set_rf_roots rs s /\ exists gs, (0 <= ztrunc ((rf_stop s - rf_start s) / rf_step s))%Z /\
    evenly (rf_start s) (rf_stop s + rf_step s) (Z.to_nat (ztrunc ((rf_stop s - rf_start s) / rf_step s))) gs /\
    searched fr (rf_start s) (rf_stop s) (rf_xtol s) (rf_start s) gs (rf_roots s) rs.
Proof. exact find_iff. Qed.
(** Any sequence of searches with one finder keeps every root inside the interval and any two at least xtol
    apart. *)
Theorem c47_roots : forall fr s s' rs, find fr s = (s', Ok rs) ->
  Forall (within (rf_start s) (rf_stop s)) (rf_roots s) -> apart (rf_xtol s) (rf_roots s) ->
  Forall (within (rf_start s) (rf_stop s)) rs /\ apart (rf_xtol s) rs /\ rf_roots s' = rs.
Proof.
  intros fr s s' rs H A B. apply find_iff in H. destruct H as (_ & -> & gs & _ & _ & S). split; [exact (searched_within _ _ _ _ _ _ _ _ S A)|]. split; [exact (searched_apart _ _ _ _ _ _ _ _ S B)|reflexivity].
Qed.
Theorem c47_fresh : forall fr start stop step xtol s' rs, find fr (newRootFinder start stop step xtol) = (s', Ok rs) ->
  Forall (within start stop) rs /\ apart xtol rs.
Proof.
  intros fr start stop step xtol s' rs H. destruct (c47_roots _ _ _ _ H) as (A & B & _); [constructor|constructor|]. split; [exact A|exact B].
Qed.
(** Every reported root was there before or is a value of the solver in the interval. *)
Theorem c47_origin : forall fr s s' rs, find fr s = (s', Ok rs) ->
  exists new, rs = (rf_roots s ++ new)%list /\ forall x, In x new -> within (rf_start s) (rf_stop s) x /\ exists x0, fr x0 = Some x.
Proof.
  intros fr s s' rs H. apply find_iff in H. destruct H as (_ & _ & gs & _ & _ & S). destruct (searched_grows _ _ _ _ _ _ _ _ S) as (new & E & G). exists new. split; [exact E|]. intros x Hx. destruct (G x Hx) as (W & x0 & _ & F). split; [exact W|]. exists x0. exact F.
Qed.
(** A guess is only left unused when an earlier one led beyond it; the root reached from any other guess is
    reported (up to xtol) if it lies in the interval. *)
Theorem c47_covered : forall fr s s' rs, find fr s = (s', Ok rs) -> rf_start s <= rf_stop s + rf_step s ->
  exists gs, evenly (rf_start s) (rf_stop s + rf_step s) (Z.to_nat (ztrunc ((rf_stop s - rf_start s) / rf_step s))) gs /\
    forall pre x0 post, gs = (pre ++ x0 :: post)%list ->
      (exists x1 x, In x1 pre /\ fr x1 = Some x /\ x0 < x) \/ fr x0 = None \/
      (exists x, fr x0 = Some x /\ (~ within (rf_start s) (rf_stop s) x \/ exists r, In r rs /\ (r = x \/ Rabs (r - x) < rf_xtol s))).
Proof.
  intros fr s s' rs H HS. apply find_iff in H. destruct H as (_ & _ & gs & HZ & EV & S). exists gs. split; [exact EV|]. intros pre x0 post E. destruct (searched_covers _ _ _ _ _ _ _ _ S pre x0 post E) as [B|B]; [|exact B]. exfalso.
  assert (HN : nth_error gs (length pre) = Some x0) by (rewrite E, nth_error_app2 by lia; rewrite Nat.sub_diag; reflexivity).
  destruct (evenly_value _ _ _ _ _ _ EV HN) as [-> |[_ ->]]; [|lra].
  set (n := Z.to_nat (ztrunc ((rf_stop s - rf_start s) / rf_step s))) in *. pose proof (pos_INR (length pre)).
  assert (0 <= (rf_stop s + rf_step s - rf_start s) / INR (n - 1)).
  { destruct (Nat.eq_dec (n - 1) 0) as [Z|Z]; [rewrite Z; cbn; unfold Rdiv; rewrite Rinv_0; lra|]. apply Rmult_le_pos; [lra|]. left. apply Rinv_0_lt_compat, lt_0_INR. lia. }
  nra.
Qed.
(** The search always ends, with a result unless the step is zero or points the wrong way. *)
Theorem c47_terminates : forall fr s, (exists s' rs, find fr s = (s', Ok rs)) \/
  (rf_step s = 0 /\ find fr s = (s, Err (Throw "float division by zero"))) \/
  ((ztrunc ((rf_stop s - rf_start s) / rf_step s) < 0)%Z /\ find fr s = (s, Err (Throw "Number of samples must be non-negative."))).
Proof.
  intros fr s. unfold find, bind, get. cbn. destruct (Req_EM_T (rf_step s) 0) as [Z|Z]; [right; left; split; [exact Z|reflexivity]|]. unfold lift, linspace. destruct (Z.ltb_spec (ztrunc ((rf_stop s - rf_start s) / rf_step s)) 0) as [L|L].
  - right. right. split; [exact L|reflexivity].
  - left. cbn. do 2 eexists. reflexivity.
Qed.
(** An interval shorter than the step is not searched at all. *)
Theorem c47_short_interval : forall fr s, 0 < rf_step s -> rf_start s <= rf_stop s < rf_start s + rf_step s ->
  find fr s = (s, Ok (rf_roots s)).
Proof.
  intros fr s HS [H1 H2]. apply find_iff. split; [lra|]. split; [destruct s; reflexivity|].
  assert (Z : ztrunc ((rf_stop s - rf_start s) / rf_step s) = 0%Z).
  { assert (B : 0 <= (rf_stop s - rf_start s) / rf_step s < 1). { split; [apply Rmult_le_pos; [lra|left; apply Rinv_0_lt_compat; exact HS]|]. apply Rmult_lt_reg_r with (rf_step s); [exact HS|]. unfold Rdiv. rewrite Rmult_assoc, Rinv_l by lra. lra. }
    apply P_Drivers.ztrunc_nonneg; [lia|lra]. }
  rewrite Z. exists []. split; [lia|]. split; [|constructor]. split; [reflexivity|]. split; [intros x E; discriminate|]. split; [cbn; lia|]. exists 0. intros [|i] x y E; discriminate.
Qed.
Example c47_short_interval_ex : find (fun x0 => Some x0) (newRootFinder 0 (1 / 200) (1 / 100) (1 / 1000)) = (newRootFinder 0 (1 / 200) (1 / 100) (1 / 1000), Ok []).
Proof. apply (c47_short_interval (fun x0 => Some x0) (newRootFinder 0 (1 / 200) (1 / 100) (1 / 1000))); cbn; lra. Qed.
(** Roots may be missed although every call of the solver succeeds with a true root. *)
Theorem c47_complete_refuted : exists (f : R -> R) fr s s' rs r, find fr s = (s', Ok rs) /\
  (forall x0, exists x, fr x0 = Some x /\ f x = 0) /\ f r = 0 /\ within (rf_start s) (rf_stop s) r /\ rf_roots s = [] /\ ~ In r rs.
Proof.
  set (fr := fun _ : R => Some 3). set (s := newRootFinder 0 4 1 (1 / 1000)).
  assert (Z : ztrunc ((4 - 0) / 1) = 4%Z). { apply P_Drivers.ztrunc_nonneg; [lia|lra]. }
  destruct (linspace_ok 0 (4 + 1) 4 ltac:(lia)) as (gs & EL & EV).
  destruct (c47_terminates fr s) as [(s' & rs & H)|[[X _]|[X _]]]; [|cbn in X; lra|cbn in X; rewrite Z in X; lia].
  exists (fun x => (x - 1) * (x - 3)), fr, s, s', rs, 1. split; [exact H|]. split; [intros x0; exists 3; split; [reflexivity|ring]|]. split; [ring|]. split; [unfold within; cbn; lra|]. split; [reflexivity|].
  destruct (c47_origin _ _ _ _ H) as (new & -> & G). cbn. intros I. destruct (G 1 I) as (_ & x0 & E). injection E as E. lra.
Qed.
Example c47_roots_ex : exists s' rs, find (fun _ => Some 3) (newRootFinder 0 4 1 (1 / 1000)) = (s', Ok rs) /\ Forall (within 0 4) rs.
Proof.
  destruct (c47_terminates (fun _ => Some 3) (newRootFinder 0 4 1 (1 / 1000))) as [(s' & rs & H)|[[X _]|[X _]]]; [|cbn in X; lra|].
  - exists s', rs. split; [exact H|]. apply (c47_fresh _ _ _ _ _ _ _ H).
  - exfalso. cbn in X. rewrite (P_Drivers.ztrunc_nonneg _ 4) in X by (lia || lra). lia.
Qed.

(** ** C48 *)
(** Whatever the shuffle and the completion order, the outputs are those of all parameter combinations, each
    with the first position of its values. *)
Theorem c48_complete : forall (A : Type) (f : list R -> A) ss o done outs, is_shuffle (length (product ss)) o ->
  Permutation done (seq 0 (length (product ss))) -> distribute f ss o done = Ok outs ->
  exists ixs, Forall2 (fun vs ix => first_pick ss ix vs) (product ss) ixs /\ Permutation outs (combine ixs (map f (product ss))).
Proof. intros A. exact (@distribute_perm A). Qed.
Theorem c48_never_fails : forall (A : Type) (f : list R -> A) ss o done, is_shuffle (length (product ss)) o ->
  Permutation done (seq 0 (length (product ss))) -> exists outs, distribute f ss o done = Ok outs.
Proof. intros A. exact (@distribute_total A). Qed.
(** The combinations are exactly the choices of one value per space. *)
Theorem c48_combinations : forall ss vs, In vs (product ss) <-> exists ix, picks ss ix vs.
Proof. exact product_iff. Qed.
(** Distinct values in each space: exactly one output per position, belonging to the values there. *)
Theorem c48_distinct : forall (A : Type) (f : list R -> A) ss o done outs, Forall (@NoDup R) ss -> is_shuffle (length (product ss)) o ->
  Permutation done (seq 0 (length (product ss))) -> distribute f ss o done = Ok outs ->
  NoDup (map fst outs) /\ forall ix out, In (ix, out) outs <-> exists vs, picks ss ix vs /\ out = f vs.
Proof. intros A. exact (@distribute_distinct A). Qed.
(** The order of completion only permutes the outputs. *)
Theorem c48_schedule : forall (A : Type) (f : list R -> A) ss o o' done done' outs outs', is_shuffle (length (product ss)) o -> is_shuffle (length (product ss)) o' ->
  Permutation done (seq 0 (length (product ss))) -> Permutation done' (seq 0 (length (product ss))) ->
  distribute f ss o done = Ok outs -> distribute f ss o' done' = Ok outs' -> Permutation outs outs'.
Proof.
  intros A f ss o o' done done' outs outs' O O' D D' H H'. destruct (distribute_perm f ss o done outs O D H) as (ixs & F & P). destruct (distribute_perm f ss o' done' outs' O' D' H') as (ixs' & F' & P').
  assert (E : ixs = ixs').
  { clear -F F'. revert ixs' F'. induction F as [|vs ix a b E F IH]; intros ixs' F'; inversion F' as [|? iy ? b' E' F'']; subst; [reflexivity|]. f_equal; [|apply IH; exact F''].
    destruct E as [E1 E2], E' as [E1' E2']. specialize (E2 _ E1'). specialize (E2' _ E1). clear -E2 E2'. revert iy E2 E2'. induction ix as [|i ix IH]; intros [|j iy] A B; inversion A; subst; inversion B; subst; [reflexivity|]. f_equal; [lia|apply IH; assumption]. }
  subst ixs'. apply Permutation_trans with (combine ixs (map f (product ss))); [exact P|apply Permutation_sym; exact P'].
Qed.
Example c48_distinct_ex : exists outs, distribute (fun vs => vs) [[1; 2]; [5]] (Some [1; 0]%nat) [1; 0]%nat = Ok outs /\ NoDup (map fst outs) /\ In ([1; 0]%nat, [2; 5]) outs.
Proof.
  set (ss := [[1; 2]; [5]]). assert (S : is_shuffle (length (product ss)) (Some [1; 0]%nat)) by (cbn; apply perm_swap). assert (D : Permutation [1; 0]%nat (seq 0 (length (product ss)))) by (cbn; apply perm_swap).
  assert (N : Forall (@NoDup R) ss). { constructor; [constructor; [intros [X|[]]; lra|constructor; [intros []|constructor]]|constructor; [constructor; [intros []|constructor]|constructor]]. }
  destruct (distribute_total (fun vs => vs) ss _ _ S D) as [outs H]. exists outs. split; [exact H|]. destruct (distribute_distinct _ ss _ _ outs N S D H) as [A B]. split; [exact A|]. apply B. exists [2; 5]. split; [|reflexivity]. constructor; [reflexivity|]. constructor; [reflexivity|constructor].
Qed.
(** Repeated values: the later position is never reported. *)
Theorem c48_repeated_refuted : exists ss done outs, Permutation done (seq 0 (length (product ss))) /\ distribute (fun vs => vs) ss None done = Ok outs /\
  (exists vs, picks ss [1%nat] vs) /\ (forall out, ~ In ([1%nat], out) outs) /\ ~ NoDup (map fst outs).
Proof.
  exists [[7; 7]], [0; 1]%nat. assert (D : Permutation [0; 1]%nat (seq 0 (length (product [[7; 7]])))) by apply Permutation_refl.
  destruct (distribute_total (fun vs : list R => vs) [[7; 7]] None _ I D) as [outs H]. exists outs. split; [exact D|]. split; [exact H|]. split; [exists [7]; constructor; [reflexivity|constructor]|].
  destruct (distribute_perm _ [[7; 7]] None _ outs I D H) as (ixs & F & P).
  assert (E : forall ix, first_pick [[7; 7]] ix [7] -> ix = [0%nat]).
  { intros ix [K1 K2]. specialize (K2 [0%nat] ltac:(constructor; [reflexivity|constructor])). inversion K2 as [|? ? ? ? L M]; subst. inversion M; subst. f_equal. lia. }
  cbn in F. inversion F as [|? i1 ? r1 F1 F2]; subst. inversion F2 as [|? i2 ? r2 F3 F4]; subst. inversion F4; subst. rewrite (E _ F1), (E _ F3) in P. cbn in P. split.
  - intros out K. apply (Permutation_in _ P) in K. destruct K as [K|[K|[]]]; discriminate.
  - intros K. apply (Permutation_NoDup (Permutation_map fst P)) in K. cbn in K. inversion K as [|? ? N _]; subst. apply N. left. reflexivity.
Qed.

(** ** C49 *)
(** What coordinate descent returns: the best score of all candidates, and a dictionary that only depends on
    which key was improved last. *)
Theorem c49_descent : forall op fn best n p, (0 <= n)%Z -> exists d b q cs, coordinate_descent op fn best n p = Ok (d, b) /\
  candidates op (Z.to_nat n) p cs /\ last_record (fun c => fn (dict_set (fst c) (snd c) op)) best cs q b /\ final_dict op (Z.to_nat n) p q d.
Proof. exact descent_ok. Qed.
(** The returned value is the maximum of the start value and the scores of the candidates. *)
Theorem c49_best : forall op fn best n p d b, coordinate_descent op fn best n p = Ok (d, b) -> op <> [] ->
  exists cs, candidates op (Z.to_nat n) p cs /\
    (forall c, In c cs -> exists y, b = Some y /\ fn (dict_set (fst c) (snd c) op) <= y) /\
    (forall x, best = Some x -> exists y, b = Some y /\ x <= y) /\
    (b = best \/ exists c, In c cs /\ b = Some (fn (dict_set (fst c) (snd c) op))).
Proof.
  intros op fn best n p d b H HO. destruct (Z.lt_ge_cases n 0) as [L|L]; [rewrite descent_negative in H by assumption; discriminate|].
  destruct (descent_ok op fn best n p L) as (d' & b' & q & cs & E & C & R & _). rewrite E in H. injection H as <- <-. exists cs. split; [exact C|]. destruct (record_best _ _ _ _ _ R) as (A & B & D). split; [exact A|]. split; [exact B|].
  destruct q as [c|]; [right; exists c; exact D|left; exact D].
Qed.
(** With at least two values per key, the returned dictionary is the start dictionary, or the start
    dictionary with one key at the upper end of its range - the best candidate itself is lost. *)
Theorem c49_returned : forall op fn best n p d b, coordinate_descent op fn best n p = Ok (d, b) -> (2 <= n)%Z ->
  d = op \/ exists k v0, In (k, v0) op /\ d = dict_set k ((1 + p) * v0) op.
Proof.
  intros op fn best n p d b H Hn. destruct (descent_ok op fn best n p ltac:(lia)) as (d' & b' & q & cs & E & C & R & F). rewrite E in H. injection H as <- <-. destruct q as [[k v]|]; [|left; exact F].
  right. destruct F as (v0 & vs & I & EV & ->). exists k, v0. split; [exact I|]. rewrite (evenly_last _ _ _ _ EV) by lia. reflexivity.
Qed.
Theorem c49_unimproved : forall op fn best n p d b, coordinate_descent op fn (Some best) n p = Ok (d, b) -> (0 <= n)%Z ->
  (forall k v, fn (dict_set k v op) <= best) -> d = op /\ b = Some best.
Proof.
  intros op fn best n p d b H Hn HB. destruct (descent_ok op fn (Some best) n p Hn) as (d' & b' & q & cs & E & C & R & F). rewrite E in H. injection H as <- <-.
  assert (K : forall cs, last_record (fun c => fn (dict_set (fst c) (snd c) op)) (Some best) cs q b' -> q = None /\ b' = Some best).
  { clear -HB. induction cs as [|c cs IH]; intros R; inversion R; subst; auto; match goal with X : above _ _ |- _ => cbn in X; specialize (HB (fst c) (snd c)); lra end. }
  destruct (K _ R) as [-> ->]. split; [exact F|reflexivity].
Qed.
Example c49_unimproved_ex : exists d b, coordinate_descent [("Ms", 2)]%string (fun _ => 0) (Some 1) 3 (1 / 2) = Ok (d, b) /\ d = [("Ms", 2)]%string /\ b = Some 1.
Proof.
  destruct (descent_ok [("Ms", 2)]%string (fun _ => 0) (Some 1) 3 (1 / 2) ltac:(lia)) as (d & b & q & cs & E & _). exists d, b. split; [exact E|]. apply (c49_unimproved _ _ _ _ _ _ _ E); [lia|]. intros. lra.
Qed.
(** The reported dictionary need not have the reported score. *)
Theorem c49_aliasing_refuted : exists op fn n p d b, coordinate_descent op fn None n p = Ok (d, Some b) /\ fn d <> b.
Proof.
  set (op := [("Ms"%string, 1)]). set (fn := fun d : pdict => match d with [(_, v)] => - (v - 1) * (v - 1) | _ => 0 end).
  destruct (descent_ok op fn None 3 (1 / 2) ltac:(lia)) as (d & b & q & cs & E & C & R & F).
  destruct C as (vss & C1 & ->). inversion C1 as [|? vs ? r EV C2]; subst. inversion C2; subst. cbn [fst snd] in EV.
  change (Z.to_nat 3) with 3%nat in EV. assert (EV' : vs = [1 / 2; 1; 3 / 2]).
  { apply (evenly_det _ _ _ _ _ EV). split; [reflexivity|]. split; [intros x X; cbn in X; injection X as <-; lra|]. split; [intros _; cbn; f_equal; lra|]. exists (1 / 2). intros [|[|[|i]]] x y X Y; cbn in *; try discriminate; try (destruct i; discriminate); injection X as <-; injection Y as <-; lra. }
  subst vs. cbn [combine flat_map map fst snd app] in R.
  assert (HB : q <> None /\ b = Some 0).
  { inversion R; subst; cbn in *; try tauto; (split; [try discriminate|]).
    all: try (match goal with K : last_record _ (Some _) [_; _] _ _ |- _ => inversion K; subst; cbn in * end).
    all: try (match goal with K : last_record _ (Some _) [_] _ _ |- _ => inversion K; subst; cbn in * end).
    all: try (match goal with K : last_record _ _ [] _ _ |- _ => inversion K; subst; cbn in * end).
    all: try lra; try (f_equal; lra); try discriminate. }
  destruct HB as [HQ ->]. exists op, fn, 3%Z, (1 / 2), d, 0. split; [exact E|]. destruct q as [[k v]|]; [|congruence]. destruct F as (v0 & vs & I & EV2 & ->). destruct I as [I|[]]. injection I as <- <-.
  rewrite (evenly_last _ _ _ _ EV2) by (cbn; lia). cbn. lra.
Qed.
(** No coordinate is ever combined with another: at most one key differs from the start dictionary. *)
Theorem c49_one_key : forall op fn best n p d b, coordinate_descent op fn best n p = Ok (d, b) -> (0 <= n)%Z ->
  exists k v, d = op \/ d = dict_set k v op.
Proof.
  intros op fn best n p d b H Hn. destruct (descent_ok op fn best n p Hn) as (d' & b' & q & cs & E & C & R & F). rewrite E in H. injection H as <- <-.
  destruct q as [[k v]|]; [destruct F as (v0 & vs & _ & _ & ->); exists k, (last vs 0); right; reflexivity|]. exists ""%string, 0. left. exact F.
Qed.
Theorem c49_negative : forall op fn best n p, (n < 0)%Z -> op <> [] -> coordinate_descent op fn best n p = Err (Throw "Number of samples must be non-negative.").
Proof. exact descent_negative. Qed.
Example c49_returned_ex : exists d b, coordinate_descent [("Ms", 1)]%string (fun _ => 0) None 2 (1 / 2) = Ok (d, b) /\ (d = [("Ms", 1)]%string \/ exists k v0, In (k, v0) [("Ms", 1)]%string /\ d = dict_set k ((1 + 1 / 2) * v0) [("Ms", 1)]%string).
Proof.
  destruct (descent_ok [("Ms", 1)]%string (fun _ => 0) None 2 (1 / 2) ltac:(lia)) as (d & b & q & cs & E & _). exists d, b. split; [exact E|]. exact (c49_returned _ _ _ _ _ _ _ E ltac:(lia)).
Qed.

Print Assumptions c47_find.
Print Assumptions c47_roots.
Print Assumptions c47_fresh.
Print Assumptions c47_origin.
Print Assumptions c47_covered.
Print Assumptions c47_terminates.
Print Assumptions c47_short_interval.
Print Assumptions c47_complete_refuted.
Print Assumptions c48_complete.
Print Assumptions c48_never_fails.
Print Assumptions c48_combinations.
Print Assumptions c48_distinct.
Print Assumptions c48_schedule.
Print Assumptions c48_repeated_refuted.
Print Assumptions c49_descent.
Print Assumptions c49_best.
Print Assumptions c49_returned.
Print Assumptions c49_unimproved.
Print Assumptions c49_aliasing_refuted.
Print Assumptions c49_one_key.
Print Assumptions c49_negative.
