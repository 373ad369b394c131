(** Proofs about modes, roots and suggestions. *)
From Verif Require Import P_PyUtils P_Resist.
From Verif Require Export S_Modes.
From Coq Require Import Psatz Sorted.
From Flocq Require Import Core.Generic_fmt Core.Raux Core.Zaux.
Open Scope R_scope.
Open Scope st_scope.

Lemma twopi : 0 < 2 * PI.
Proof. assert (H := PI_RGT_0). lra. Qed.
Lemma over_twopi x : 0 < x / (2 * PI) <-> 0 < x.
Proof.
  assert (T := twopi). split; intros H.
  - replace x with (x / (2 * PI) * (2 * PI)) by (field; assert (P := PI_RGT_0); lra). apply Rmult_lt_0_compat; assumption.
  - apply Rdiv_lt_0_compat; assumption.
Qed.
Lemma positive_in vals i : In i (positive_modes vals) <-> (i < length vals)%nat /\ 0 < snd (nth i vals (0, 0)).
Proof.
  unfold positive_modes. rewrite filter_In, in_seq. destruct (Rlt_dec 0 (snd (nth i vals (0, 0)) / (2 * PI))) as [H|H]; rewrite over_twopi in H; split; intros [A B]; try discriminate; try tauto; split; auto; lia.
Qed.
Lemma filter_positions {X} (p : X -> bool) d l : forall a, map (fun i => nth (i - a) l d) (filter (fun i => p (nth (i - a) l d)) (seq a (length l))) = filter p l.
Proof.
  induction l as [|x l IH]; intros a; [reflexivity|]. cbn [length seq filter]. assert (Z : nth (a - a) (x :: l) d = x) by (rewrite Nat.sub_diag; reflexivity). rewrite Z.
  assert (E : filter (fun i => p (nth (i - a) (x :: l) d)) (seq (S a) (length l)) = filter (fun i => p (nth (i - S a) l d)) (seq (S a) (length l))).
  { apply filter_ext_in. intros i I. apply in_seq in I. replace (i - a)%nat with (S (i - S a)) by lia. reflexivity. }
  rewrite E. assert (M : map (fun i => nth (i - a) (x :: l) d) (filter (fun i => p (nth (i - S a) l d)) (seq (S a) (length l))) = filter p l).
  { rewrite <- (IH (S a)). apply map_ext_in. intros i I. apply filter_In in I. destruct I as [I _]. apply in_seq in I. replace (i - a)%nat with (S (i - S a)) by lia. reflexivity. }
  destruct (p x); [cbn [map]; rewrite Z, M; reflexivity|exact M].
Qed.
Lemma positive_values vals : map (fun i => nth i vals (0, 0)) (positive_modes vals) = oscillating vals.
Proof.
  unfold positive_modes, oscillating. rewrite <- (filter_positions (fun l => if Rlt_dec 0 (snd l) then true else false) (0, 0) vals 0).
  rewrite (filter_ext (fun i => if Rlt_dec 0 (snd (nth i vals (0, 0)) / (2 * PI)) then true else false) (fun i => if Rlt_dec 0 (snd (nth (i - 0) vals (0, 0))) then true else false)).
  - apply map_ext. intros i. rewrite Nat.sub_0_r. reflexivity.
  - intros i. rewrite Nat.sub_0_r. destruct (Rlt_dec 0 (snd (nth i vals (0, 0)) / (2 * PI))) as [H|H]; rewrite over_twopi in H; destruct (Rlt_dec 0 (snd (nth i vals (0, 0)))); reflexivity || contradiction.
Qed.
Lemma rows_ok (rows : list (list complex)) idx vecs : rmap (fun i => match nth_error rows i with Some r => Ok r | None => Err (Throw "index is out of bounds") end) idx = Ok vecs <->
  (forall i, In i idx -> (i < length rows)%nat) /\ vecs = map (fun i => nth i rows []) idx.
Proof.
  revert vecs. induction idx as [|i idx IH]; intros vecs; cbn [rmap].
  - split; [intros E; injection E as <-; split; [intros ? []|reflexivity]|intros [_ ->]; reflexivity].
  - destruct (nth_error rows i) as [r|] eqn:E.
    + assert (L : (i < length rows)%nat) by (apply nth_error_Some; congruence). apply (nth_error_nth _ _ []) in E. cbn [rbind]. rewrite rbind_iff. split.
      * intros (ys & Y & X). injection X as <-. apply IH in Y. destruct Y as [A ->]. split; [intros j [<-|J]; auto|]. cbn. rewrite E. reflexivity.
      * intros [A ->]. exists (map (fun i => nth i rows []) idx). split; [apply IH; split; [intros; apply A; right; assumption|reflexivity]|]. cbn. rewrite E. reflexivity.
    + apply nth_error_None in E. cbn [rbind]. split; [discriminate|]. intros [A _]. specialize (A i (or_introl eq_refl)). lia.
Qed.
Lemma select_iff vals rows fs vecs : select_modes vals rows = Ok (fs, vecs) <->
  (forall i, (i < length vals)%nat -> 0 < snd (nth i vals (0, 0)) -> (i < length rows)%nat) /\
  fs = map (fun l => snd l / (2 * PI)) (oscillating vals) /\ vecs = map (fun i => nth i rows []) (positive_modes vals).
Proof.
  unfold select_modes. cbv zeta. rewrite rbind_iff. rewrite <- positive_values, map_map. split.
  - intros (v & V & E). injection E as <- <-. apply rows_ok in V. destruct V as [A ->]. split; [intros i L P; apply A, positive_in; auto|auto].
  - intros (A & -> & ->). eexists. split; [apply rows_ok; split; [|reflexivity]|reflexivity]. intros i I. apply positive_in in I. apply A; tauto.
Qed.
Lemma dynamic_iff eig s eq fs vecs : dynamic_layer_solve eig s eq = Ok (fs, vecs) <->
  exists H jac syms a vals rows, sv_H s = Some H /\ compose_llg_jacobian s (cart (get_cartesian H)) = Ok (jac, syms) /\ length eq = length syms /\
  numeric (subs_of syms eq nothing) jac = Ok a /\ eig a = Ok (vals, rows) /\ select_modes vals rows = Ok (fs, vecs).
Proof.
  unfold dynamic_layer_solve. destruct (sv_H s) as [H|]; [|split; [discriminate|intros (H & ? & ? & ? & ? & ? & X & _); discriminate]]. rewrite rbind_iff. split.
  - intros ((jac & syms) & J & E). destruct (Nat.eqb_spec (length eq) (length syms)) as [L|]; [|discriminate]. cbn [negb] in E. apply rbind_iff in E. destruct E as (a & N & E). apply rbind_iff in E. destruct E as ((vals & rows) & G & E).
    exists H, jac, syms, a, vals, rows. auto 8.
  - intros (H' & jac & syms & a & vals & rows & E0 & J & L & N & G & E). injection E0 as <-. exists (jac, syms). split; [exact J|]. rewrite L, Nat.eqb_refl. cbn [negb]. rewrite N. cbn [rbind]. rewrite G. exact E.
Qed.
Lemma dynamic_frequencies eig s eq fs vecs : dynamic_layer_solve eig s eq = Ok (fs, vecs) -> length fs = length vecs /\ forall f, In f fs -> 0 < f.
Proof.
  intros E. apply dynamic_iff in E. destruct E as (H & jac & syms & a & vals & rows & _ & _ & _ & _ & _ & E). apply select_iff in E. destruct E as (_ & -> & ->). split.
  - rewrite <- positive_values. rewrite !map_length. reflexivity.
  - intros f F. apply in_map_iff in F. destruct F as (l & <- & L). apply filter_In in L. destruct L as [_ L]. destruct (Rlt_dec 0 (snd l)); [|discriminate]. apply over_twopi. assumption.
Qed.
Lemma dynamic_eigen eig s eq fs vecs : (forall a vals rows, eig a = Ok (vals, rows) -> eigensystem a vals rows) -> dynamic_layer_solve eig s eq = Ok (fs, vecs) ->
  exists H jac syms a, sv_H s = Some H /\ compose_llg_jacobian s (cart (get_cartesian H)) = Ok (jac, syms) /\ numeric (subs_of syms eq nothing) jac = Ok a /\
  forall f, In f fs -> exists l v, eigenvector a l v /\ f = snd l / (2 * PI).
Proof.
  intros EIG E. apply dynamic_iff in E. destruct E as (H & jac & syms & a & vals & rows & EH & J & L & N & G & E). apply select_iff in E. destruct E as (_ & -> & _). exists H, jac, syms, a. repeat split; auto.
  destruct (EIG a vals rows G) as (LV & LR & LC & C). intros f F. apply in_map_iff in F. destruct F as (l & <- & I). apply filter_In in I. destruct I as [I _]. apply (In_nth _ _ (0, 0)) in I. destruct I as (k & K & <-). assert (K2 := K). change (k < length vals)%nat in K2. rewrite LV in K2. clear K. rename K2 into K. exists (nth k vals (0, 0)), (column rows k). split; [apply C, K|reflexivity].
Qed.
(** The rows of the eigenvector matrix *)
Definition spin : list (list R) := [[0; -4]; [1; 0]].
Definition spin_values : list complex := [(0, 2); (0, -2)].
Definition spin_rows : list (list complex) := [[(0, 2); (0, -2)]; [(1, 0); (1, 0)]].
Lemma spin_system : eigensystem spin spin_values spin_rows.
Proof.
  unfold eigensystem, spin, spin_values, spin_rows. repeat split; try reflexivity.
  - intros r [<-|[<-|[]]]; reflexivity.
  - destruct k as [|[|k]]; cbn in H; [| |lia]; cbn; [exists (1, 0)|exists (1, 0)]; (split; [auto|intros E; injection E; lra]).
  - destruct k as [|[|k]]; cbn in H; [| |lia]; unfold cdot, times; cbn; (f_equal; [apply injective_projections; cbn; ring|f_equal; apply injective_projections; cbn; ring]).
Qed.
Lemma spin_wrong : select_modes spin_values spin_rows = Ok ([2 / (2 * PI)], [[(0, 2); (0, -2)]]) /\ forall l, ~ eigenvector spin l [(0, 2); (0, -2)].
Proof.
  split.
  - apply select_iff. cbn [spin_values spin_rows length]. assert (O : oscillating spin_values = [(0, 2)]). { unfold oscillating, spin_values. cbn [filter snd]. destruct (Rlt_dec 0 2); [|lra]. destruct (Rlt_dec 0 (-2)); [lra|reflexivity]. }
    assert (P : positive_modes spin_values = [0%nat]). { unfold positive_modes, spin_values. cbn [length seq filter nth snd]. destruct (Rlt_dec 0 (2 / (2 * PI))) as [A|A]; rewrite over_twopi in A; [|lra]. destruct (Rlt_dec 0 (-2 / (2 * PI))) as [B|B]; rewrite over_twopi in B; [lra|reflexivity]. }
    fold spin_values. rewrite O, P. split; [intros i L _; exact L|]. split; reflexivity.
  - intros [x y] (_ & _ & E). unfold spin, cdot, times in E. cbn in E. injection E as E1 E2 E3 E4. lra.
Qed.

(** ** Roots *)
Lemma around_iff x y : around2 x = y <-> hundredth x y.
Proof.
  unfold around2, hundredth. set (n := Znearest (fun z => negb (Z.even z)) (x * 100)).
  assert (H : Rabs (x * 100 - IZR n) <= / 2) by apply Znearest_half.
  assert (SC : forall k : Z, Rabs (x - IZR k / 100) = Rabs (x * 100 - IZR k) / 100). { intros k. replace (x - IZR k / 100) with ((x * 100 - IZR k) / 100) by field. unfold Rdiv at 1. rewrite Rabs_mult. rewrite (Rabs_pos_eq (/ 100)) by lra. reflexivity. }
  assert (TIE : Rabs (x * 100 - IZR n) = / 2 -> Z.even n = true).
  { intros T. unfold n, Znearest in *. destruct (Rcompare_spec (x * 100 - IZR (Zfloor (x * 100))) (/ 2)) as [C|C|C].
    - assert (F := Zfloor_lb (x * 100)). rewrite Rabs_pos_eq in T by lra. lra.
    - destruct (Z.even (Zfloor (x * 100))) eqn:V; cbn [negb]; [exact V|]. assert (N : x * 100 <> IZR (Zfloor (x * 100))) by lra. rewrite (Zceil_floor_neq _ (not_eq_sym N)). rewrite Z.even_add, V. reflexivity.
    - assert (N : x * 100 <> IZR (Zfloor (x * 100))) by lra. rewrite (Zceil_floor_neq _ (not_eq_sym N)), plus_IZR in T. assert (F := Zfloor_ub (x * 100)). rewrite Rabs_left1 in T by lra. lra. }
  split.
  - intros <-. exists n. rewrite SC. split; [reflexivity|]. split; [lra|]. intros E. apply TIE. lra.
  - intros (k & -> & B & T). rewrite SC in B, T. f_equal. f_equal. destruct (Z.eq_dec n k) as [|D]; [assumption|exfalso].
    assert (D' : 1 <= Rabs (IZR n - IZR k)). { rewrite <- minus_IZR, <- abs_IZR. apply IZR_le. lia. }
    assert (TR : Rabs (IZR n - IZR k) <= Rabs (x * 100 - IZR k) + Rabs (x * 100 - IZR n)). { replace (IZR n - IZR k) with ((x * 100 - IZR k) - (x * 100 - IZR n)) by ring. eapply Rle_trans; [apply Rabs_triang|]. rewrite Rabs_Ropp. lra. }
    assert (EK : Z.even k = true) by (apply T; lra). assert (EN : Z.even n = true) by (apply TIE; lra).
    assert (L : Rabs (IZR n - IZR k) <= 1) by lra. rewrite <- minus_IZR, <- abs_IZR in L. apply le_IZR in L. assert (X : Z.abs (n - k) = 1%Z) by lia. apply Z.even_spec in EK. apply Z.even_spec in EN. destruct EK as [p ->], EN as [q ->]. lia.
Qed.
Lemma insert_in x l y : In y (insert_value x l) <-> y = x \/ In y l.
Proof.
  induction l as [|z l IH]; cbn; [intuition congruence|]. destruct (Rlt_dec x z); [cbn; intuition congruence|]. destruct (Req_EM_T x z) as [->|]; cbn; [intuition congruence|]. rewrite IH. tauto.
Qed.
Lemma insert_sorted x l : StronglySorted Rlt l -> StronglySorted Rlt (insert_value x l).
Proof.
  induction 1 as [|z l S IH F]; cbn; [constructor; constructor|]. destruct (Rlt_dec x z) as [L|L].
  - constructor; [constructor; assumption|]. constructor; [exact L|]. rewrite Forall_forall in F |- *. intros y Y. specialize (F y Y). lra.
  - destruct (Req_EM_T x z) as [->|N]; [constructor; assumption|]. constructor; [exact IH|]. rewrite Forall_forall in F |- *. intros y Y. apply insert_in in Y. destruct Y as [->|Y]; [lra|auto].
Qed.
Lemma unique_spec l : StronglySorted Rlt (np_unique l) /\ forall y, In y (np_unique l) <-> In y l.
Proof.
  induction l as [|x l [IH1 IH2]]; cbn; [split; [constructor|tauto]|]. split; [apply insert_sorted, IH1|]. intros y. rewrite insert_in. fold (np_unique l). rewrite IH2. intuition congruence.
Qed.
Lemma sorted_unique l : forall m, StronglySorted Rlt l -> StronglySorted Rlt m -> (forall y, In y l <-> In y m) -> l = m.
Proof.
  induction l as [|x l IH]; intros m L M E.
  - destruct m as [|y m]; [reflexivity|]. exfalso. apply (E y). left. reflexivity.
  - destruct m as [|y m]; [exfalso; apply (E x); left; reflexivity|]. inversion L as [|? ? L1 L2]; subst. inversion M as [|? ? M1 M2]; subst. rewrite Forall_forall in L2, M2.
    assert (X : x = y). { destruct (proj1 (E x) (or_introl eq_refl)) as [A|A]; [auto|]. destruct (proj2 (E y) (or_introl eq_refl)) as [B|B]; [auto|]. specialize (M2 x A). specialize (L2 y B). lra. }
    subst y. f_equal. apply IH; auto. intros y. split; intros Y; [destruct (proj1 (E y) (or_intror Y)) as [A|A]; [subst y; specialize (L2 x Y); lra|exact A]|destruct (proj2 (E y) (or_intror Y)) as [A|A]; [subst y; specialize (M2 x Y); lra|exact A]].
Qed.
Lemma roots_iff roots fs : root_frequencies roots = fs <-> StronglySorted Rlt fs /\ forall f, In f fs <-> exists r, In r roots /\ hundredth (r / 10 ^ 9) f.
Proof.
  unfold root_frequencies. destruct (unique_spec (map (fun r => around2 (r / 10 ^ 9)) roots)) as [S I].
  assert (I' : forall f, In f (np_unique (map (fun r => around2 (r / 10 ^ 9)) roots)) <-> exists r, In r roots /\ hundredth (r / 10 ^ 9) f).
  { intros f. rewrite I, in_map_iff. split; intros (r & A & B); exists r; [split; [exact B|apply around_iff, A]|split; [apply around_iff, B|exact A]]. }
  split; [intros <-; auto|]. intros [S' I'']. apply sorted_unique; auto. intros y. rewrite I', I''. tauto.
Qed.

(** ** Suggestions *)
Section Suggest.
  Context {X Y : Type} (fn : X -> result Y) (error_fn : Y -> result R).
  Lemma finish_spec suggestions done : forall futures j x, nth_error suggestions j = Some x -> (In j done \/ futures j = Some (fn x)) -> finish fn suggestions done futures j = Some (fn x).
  Proof.
    induction done as [|i done IH]; intros futures j x N C; cbn [finish]; [destruct C as [[]|C]; exact C|]. apply (IH _ j x N). destruct (Nat.eqb_spec j i) as [->|D].
    - right. rewrite N. reflexivity.
    - destruct C as [[E|I]|C]; [congruence|left; exact I|right; exact C].
  Qed.
  Lemma multiprocess_spec suggestions done : suggestions <> [] -> (forall j, (j < length suggestions)%nat -> In j done) ->
    multiprocess_simulate fn error_fn suggestions done = rmap (evaluate fn error_fn) suggestions.
  Proof.
    intros NE D. unfold multiprocess_simulate. destruct (Nat.eqb_spec (length suggestions) 0) as [E|_]; [destruct suggestions; [contradiction|discriminate]|]. cbv zeta.
    set (fut := finish fn suggestions done (fun _ => None)). assert (F : forall j x, nth_error suggestions j = Some x -> fut j = Some (fn x)). { intros j x N. apply finish_spec; [exact N|]. left. apply D. apply nth_error_Some. congruence. }
    clearbody fut. clear D NE. revert fut F. induction suggestions as [|x l IH]; intros fut F; [reflexivity|]. cbn [length seq rmap]. rewrite (F 0%nat x eq_refl). unfold evaluate at 1.
    assert (SH : rmap (fun j => match fut j with Some (Ok y) => error_fn y | Some (Err e) => Err e | None => Err Undefined end) (seq 1 (length l)) = rmap (evaluate fn error_fn) l).
    { rewrite <- seq_shift. rewrite <- (IH (fun j => fut (S j)) (fun j z N => F (S j) z N)). generalize (seq 0 (length l)). intros q. induction q as [|a q IHq]; [reflexivity|]. cbn [map rmap]. rewrite IHq. reflexivity. }
    rewrite SH. destruct (fn x); reflexivity.
  Qed.
  Lemma fold_least l : forall x, least (x :: l) (fold_left Rmin l x).
  Proof.
    induction l as [|a l IH]; intros x; cbn [fold_left]; [split; [left; reflexivity|intros w [<-|[]]; lra]|]. destruct (IH (Rmin x a)) as [I B]. split.
    - destruct I as [E|I]; [|right; right; exact I]. rewrite <- E. unfold Rmin. destruct (Rle_dec x a); [left|right; left]; reflexivity.
    - assert (M := B _ (or_introl eq_refl)). intros w [<-|[<-|W]]; [eapply Rle_trans; [exact M|apply Rmin_l]|eapply Rle_trans; [exact M|apply Rmin_r]|apply B; right; exact W].
  Qed.
  Lemma minimum_iff l v : minimum l = Ok v <-> least l v.
  Proof.
    unfold minimum. destruct l as [|x l]; [split; [discriminate|intros [[] _]]|]. destruct (fold_least l x) as [I B]. split; [intros E; injection E as <-; split; assumption|]. intros [I' B']. f_equal. apply Rle_antisym; auto.
  Qed.
  Lemma evaluate_pairs recs errors : rmap (evaluate fn error_fn) recs = Ok errors -> length errors = length recs /\ forall x e, In (x, e) (combine recs errors) -> evaluate fn error_fn x = Ok e.
  Proof.
    intros E. apply rmap_iff in E. induction E as [|x e xs es H F IH]; [split; [reflexivity|intros ? ? []]|]. destruct IH as [L C]. split; [cbn; lia|]. intros a b [P|P]; [injection P as <- <-; exact H|auto].
  Qed.
  Context (suggest : list (X * R) -> nat -> result (list X)) (schedule : nat -> list nat).
  Definition tracked (i : nat) (observed : list (X * R)) (best : option R) (reports : list (nat * R)) : Prop :=
    (forall x e, In (x, e) observed -> evaluate fn error_fn x = Ok e) /\
    match best with None => observed = [] /\ reports = [] | Some b => least (map snd observed) b /\ exists j rest, reports = (rest ++ [(j, b)])%list end /\
    (forall j v, In (j, v) reports -> (1 <= j < i)%nat /\ match best with None => True | Some b => b <= v end) /\
    StronglySorted (fun p q => (fst p < fst q)%nat /\ snd q < snd p) reports.
  Lemma sorted_snoc {P} (Q : P -> P -> Prop) l x : StronglySorted Q l -> (forall y, In y l -> Q y x) -> StronglySorted Q (l ++ [x]).
  Proof.
    induction 1 as [|y l S IH F]; intros H; cbn; [constructor; constructor|]. constructor; [apply IH; intros; apply H; right; assumption|]. rewrite Forall_forall in F |- *. intros z Z. apply in_app_iff in Z. destruct Z as [Z|[<-|[]]]; [auto|apply H; left; reflexivity].
  Qed.
  Lemma loop_spec (n : nat) : (forall i, (1 <= i)%nat -> forall j, (j < n)%nat -> In j (schedule i)) -> (forall obs l, suggest obs n = Ok l -> length l = n) ->
    forall more i observed best reports out, (1 <= i)%nat -> tracked i observed best reports ->
    hebo_loop fn error_fn suggest schedule more i n observed best reports = Ok out ->
    exists best', tracked (i + more) (fst out) best' (snd out) /\ (length (fst out) = length observed + more * n)%nat /\ (more <> 0%nat -> n <> 0%nat /\ best' <> None).
  Proof.
    intros SCH SUG. induction more as [|more IH]; intros i observed best reports out I1 T E; cbn [hebo_loop] in E.
    - injection E as <-. exists best. rewrite Nat.add_0_r. split; [exact T|]. cbn. split; [lia|contradiction].
    - apply rbind_iff in E. destruct E as (recs & ER & E). apply rbind_iff in E. destruct E as (errors & EE & E). cbv zeta in E. apply rbind_iff in E. destruct E as (val & EV & E).
      assert (LR := SUG _ _ ER). assert (NE : recs <> []) by (intros ->; cbn in EE; discriminate). rewrite multiprocess_spec in EE; [|exact NE|rewrite LR; apply SCH; exact I1].
      destruct (evaluate_pairs _ _ EE) as [LE PE]. set (obs := (observed ++ combine recs errors)%list) in *. apply minimum_iff in EV. destruct T as (T1 & T2 & T3 & T4).
      assert (O1 : forall x e, In (x, e) obs -> evaluate fn error_fn x = Ok e) by (intros x e O; apply in_app_iff in O; destruct O; auto).
      assert (LO : length obs = (length observed + n)%nat) by (unfold obs; rewrite app_length, combine_length, LE; lia).
      assert (NZ : n <> 0%nat) by (rewrite <- LR; destruct recs; [contradiction|discriminate]).
      assert (NEW : (match best with None => True | Some b => val < b end) -> tracked (S i) obs (Some val) (reports ++ [(i, val)])).
      { intros NW. split; [exact O1|]. split; [split; [exact EV|eauto]|]. split.
        - intros j v J. apply in_app_iff in J. destruct J as [J|[J|[]]]; [|injection J as <- <-; split; [lia|lra]]. destruct (T3 j v J) as [A B]. split; [lia|]. destruct best as [b|]; [lra|]. destruct T2 as [_ ->]. destruct J.
        - apply sorted_snoc; [exact T4|]. intros [j v] J. destruct (T3 j v J) as [A B]. cbn. split; [lia|]. destruct best as [b|]; [lra|]. destruct T2 as [_ ->]. destruct J. }
      destruct best as [b|].
      + destruct T2 as [TL (j & rest & TR)]. destruct (Rlt_dec val b) as [L|L].
        * destruct (IH _ _ _ _ _ (Nat.le_le_succ_r _ _ I1) (NEW L) E) as (b' & A & B & C). exists b'. replace (i + S more)%nat with (S i + more)%nat by lia. split; [exact A|]. split; [rewrite B, LO; lia|]. intros _. split; [exact NZ|]. intros ->. destruct A as (_ & [A _] & _). assert (length (fst out) = 0)%nat by (rewrite A; reflexivity). lia.
        * assert (VB : val = b). { apply Rle_antisym; [|lra]. destruct EV as [_ EV]. apply EV. unfold obs. rewrite map_app. apply in_app_iff. left. apply TL. }
          assert (SAME : tracked (S i) obs (Some b) reports). { split; [exact O1|]. split; [split; [rewrite <- VB; exact EV|eauto]|]. split; [|exact T4]. intros j' v J. destruct (T3 j' v J). split; [lia|assumption]. }
          destruct (IH _ _ _ _ _ (Nat.le_le_succ_r _ _ I1) SAME E) as (b' & A & B & C). exists b'. replace (i + S more)%nat with (S i + more)%nat by lia. split; [exact A|]. split; [rewrite B, LO; lia|]. intros _. split; [exact NZ|]. intros ->. destruct A as (_ & [A _] & _). assert (length (fst out) = 0)%nat by (rewrite A; reflexivity). lia.
      + destruct (IH _ _ _ _ _ (Nat.le_le_succ_r _ _ I1) (NEW I) E) as (b' & A & B & C). exists b'. replace (i + S more)%nat with (S i + more)%nat by lia. split; [exact A|]. split; [rewrite B, LO; lia|]. intros _. split; [exact NZ|]. intros ->. destruct A as (_ & [A _] & _). assert (length (fst out) = 0)%nat by (rewrite A; reflexivity). lia.
  Qed.
  Lemma hebo_spec n_iters n observed reports : (forall i, (1 <= i)%nat -> forall j, (j < n)%nat -> In j (schedule i)) -> (forall obs l, suggest obs n = Ok l -> length l = n) ->
    hebo_optimization_loop fn error_fn suggest schedule n_iters n = Ok (observed, reports) ->
    length observed = (n_iters * n)%nat /\ (forall x e, In (x, e) observed -> evaluate fn error_fn x = Ok e) /\
    StronglySorted (fun p q => (fst p < fst q)%nat /\ snd q < snd p) reports /\ (forall i v, In (i, v) reports -> (1 <= i <= n_iters)%nat) /\
    (n_iters <> 0%nat -> n <> 0%nat /\ exists b i rest, least (map snd observed) b /\ reports = (rest ++ [(i, b)])%list).
  Proof.
    intros SCH SUG E. destruct (loop_spec n SCH SUG n_iters 1 [] None [] (observed, reports) ltac:(lia)) as (b & (T1 & T2 & T3 & T4) & L & NZ); [|exact E|].
    - split; [intros ? ? []|]. split; [auto|]. split; [intros ? ? []|constructor].
    - cbn [fst snd length] in *. split; [exact L|]. split; [exact T1|]. split; [exact T4|]. split; [intros i v I; destruct (T3 i v I); lia|]. intros N. destruct (NZ N) as [A B]. split; [exact A|]. destruct b as [b|]; [|contradiction]. destruct T2 as [T2 (i & rest & ->)]. eauto 6.
  Qed.
  (** What was suggested and when it was reported *)
  Definition traced (n i : nat) (observed : list (X * R)) (reports : list (nat * R)) : Prop :=
    length observed = ((i - 1) * n)%nat /\
    (forall k, (1 <= k < i)%nat -> suggest (firstn ((k - 1) * n) observed) n = Ok (map fst (firstn n (skipn ((k - 1) * n) observed)))) /\
    (forall j v, In (j, v) reports <-> (1 <= j < i)%nat /\ least (map snd (firstn (j * n) observed)) v /\ forall w, In w (map snd (firstn ((j - 1) * n) observed)) -> v < w).
  Lemma least_unique l v w : least l v -> least l w -> v = w.
  Proof. intros [A B] [C D]. apply Rle_antisym; auto. Qed.
  Lemma firstn_left {A} k (l m : list A) : (k <= length l)%nat -> firstn k (l ++ m) = firstn k l.
  Proof. intros L. rewrite firstn_app. replace (k - length l)%nat with 0%nat by lia. rewrite firstn_O, app_nil_r. reflexivity. Qed.
  Lemma combine_fst {A B} (l : list A) (m : list B) : length m = length l -> map fst (combine l m) = l.
  Proof. revert m. induction l as [|a l IH]; intros [|b m] L; cbn in *; try discriminate; [reflexivity|]. rewrite IH by lia. reflexivity. Qed.
  Lemma trace_spec (n : nat) : (forall i, (1 <= i)%nat -> forall j, (j < n)%nat -> In j (schedule i)) -> (forall obs l, suggest obs n = Ok l -> length l = n) ->
    forall more i observed best reports out, (1 <= i)%nat -> traced n i observed reports -> match best with None => observed = [] | Some b => least (map snd observed) b end ->
    hebo_loop fn error_fn suggest schedule more i n observed best reports = Ok out -> traced n (i + more) (fst out) (snd out).
  Proof.
    intros SCH SUG. induction more as [|more IH]; intros i observed best reports out I1 T B E; cbn [hebo_loop] in E.
    - injection E as <-. rewrite Nat.add_0_r. exact T.
    - apply rbind_iff in E. destruct E as (recs & ER & E). apply rbind_iff in E. destruct E as (errors & EE & E). cbv zeta in E. apply rbind_iff in E. destruct E as (val & EV & E).
      assert (LR := SUG _ _ ER). assert (NE : recs <> []) by (intros ->; cbn in EE; discriminate). rewrite multiprocess_spec in EE; [|exact NE|rewrite LR; apply SCH; exact I1].
      destruct (evaluate_pairs _ _ EE) as [LE _]. set (new := combine recs errors) in *. assert (LN : length new = n) by (unfold new; rewrite combine_length; lia). assert (FN : map fst new = recs) by (apply combine_fst; lia). apply minimum_iff in EV. destruct T as (T1 & T2 & T3).
      assert (MN : forall k, (k < i)%nat -> (k * n <= (i - 1) * n)%nat) by (intros k K; apply Nat.mul_le_mono_r; lia).
      assert (MN2 : forall k, (1 <= k < i)%nat -> ((k - 1) * n + n <= (i - 1) * n)%nat). { intros k K. replace ((k - 1) * n + n)%nat with (k * n)%nat; [apply MN; lia|]. replace k with (S (k - 1)) at 1 by lia. cbn. lia. }
      assert (II : (i * n)%nat = ((i - 1) * n + n)%nat). { replace i with (S (i - 1)) at 1 by lia. cbn. lia. }
      assert (STEP : forall reports', (forall j v, In (j, v) reports' <-> In (j, v) reports \/ j = i /\ v = val /\ forall w, In w (map snd observed) -> val < w) -> traced n (S i) (observed ++ new) reports').
      { intros reports' RR. split; [rewrite app_length, LN, T1; cbn; rewrite Nat.sub_0_r; lia|]. split.
        - intros k K. destruct (Nat.eq_dec k i) as [->|].
          + rewrite <- T1, firstn_left, firstn_all by lia. rewrite skipn_app, skipn_all, Nat.sub_diag. cbn [skipn app]. rewrite <- LN at 2. rewrite firstn_all, FN. exact ER.
          + assert (K' : (1 <= k < i)%nat) by lia. specialize (MN2 k K'). rewrite firstn_left by lia. rewrite T2 by exact K'. rewrite skipn_app. rewrite firstn_left; [reflexivity|]. rewrite skipn_length. lia.
        - intros j v. rewrite RR. destruct (Nat.eq_dec j i) as [->|D].
          + rewrite (firstn_all2 (n := i * n)) by (rewrite app_length; lia). rewrite firstn_left by lia. rewrite (firstn_all2 (n := (i - 1) * n)) by lia. split.
            * intros [F|(_ & -> & W)]; [apply T3 in F; lia|]. split; [lia|]. split; [exact EV|exact W].
            * intros (_ & L & W). right. assert (X1 : v = val) by (eapply least_unique; eassumption). subst v. auto.
          + split.
            * intros [F|(F & _)]; [|contradiction]. apply T3 in F. destruct F as (J & F). split; [lia|]. rewrite !firstn_left; [exact F|rewrite T1; apply MN; lia|rewrite T1; apply MN; lia].
            * intros (J & F). left. apply T3. split; [lia|]. rewrite !firstn_left in F; [exact F|rewrite T1; apply MN; lia|rewrite T1; apply MN; lia]. }
      replace (i + S more)%nat with (S i + more)%nat by lia. assert (SNOC : forall (j : nat) (v : R), In (j, v) (reports ++ [(i, val)]) <-> In (j, v) reports \/ j = i /\ v = val). { intros j v. rewrite in_app_iff. cbn. split; [intros [?|[F|[]]]; [auto|injection F as <- <-; auto]|intros [?|[-> ->]]; auto]. }
      destruct best as [b|]; [destruct (Rlt_dec val b) as [L|L]|].
      + apply (IH _ _ _ _ _ (Nat.le_le_succ_r _ _ I1)) in E; [exact E| |exact EV]. apply STEP. intros j v. rewrite SNOC. split; [intros [F|[-> ->]]; [auto|]|tauto]. right. repeat split; auto. intros w W. destruct B as [_ B]. specialize (B w W). lra.
      + assert (VB : val = b). { apply Rle_antisym; [|lra]. destruct EV as [_ EV]. apply EV. rewrite map_app. apply in_app_iff. left. apply B. }
        apply (IH _ _ _ _ _ (Nat.le_le_succ_r _ _ I1)) in E; [exact E| |rewrite <- VB; exact EV]. apply STEP. intros j v. split; [auto|]. intros [F|(_ & _ & F)]; [exact F|]. destruct B as [B _]. specialize (F b B). lra.
      + subst observed. apply (IH _ _ _ _ _ (Nat.le_le_succ_r _ _ I1)) in E; [exact E| |exact EV]. apply STEP. intros j v. rewrite SNOC. split; [intros [F|[-> ->]]; [auto|]|tauto]. right. repeat split; auto. intros w [].
  Qed.
  Lemma hebo_trace n_iters n observed reports : (forall i, (1 <= i)%nat -> forall j, (j < n)%nat -> In j (schedule i)) -> (forall obs l, suggest obs n = Ok l -> length l = n) ->
    hebo_optimization_loop fn error_fn suggest schedule n_iters n = Ok (observed, reports) ->
    (forall k, (k < n_iters)%nat -> suggest (firstn (k * n) observed) n = Ok (map fst (firstn n (skipn (k * n) observed)))) /\
    (forall j v, In (j, v) reports <-> (1 <= j <= n_iters)%nat /\ least (map snd (firstn (j * n) observed)) v /\ forall w, In w (map snd (firstn ((j - 1) * n) observed)) -> v < w).
  Proof.
    intros SCH SUG E. destruct (trace_spec n SCH SUG n_iters 1 [] None [] (observed, reports) ltac:(lia)) as (_ & T2 & T3); [|reflexivity|exact E|].
    - split; [reflexivity|]. split; [lia|]. intros j v. split; [intros []|lia].
    - cbn [fst snd] in *. split.
      + intros k K. specialize (T2 (S k) ltac:(lia)). cbn [Nat.sub] in T2. rewrite Nat.sub_0_r in T2. exact T2.
      + intros j v. rewrite T3. split; intros (A & B); (split; [lia|exact B]).
  Qed.
  Lemma hebo_none n_iters : (forall obs, suggest obs 0 = Ok []) -> n_iters <> 0%nat -> hebo_optimization_loop fn error_fn suggest schedule n_iters 0 = Err (Throw "max_workers must be greater than 0").
  Proof. intros S N. destruct n_iters as [|k]; [contradiction|]. unfold hebo_optimization_loop. cbn [hebo_loop]. rewrite S. reflexivity. Qed.
End Suggest.
