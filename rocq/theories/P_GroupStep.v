(** Interacting groups: simultaneity and independence of the order. *)
From Verif Require Export P_Group.
From Coq Require Import Permutation FinFun.
Open Scope R_scope.
Open Scope st_scope.

Lemma same_refl fs l : same_except fs l l.
Proof. intros f _. destruct f; reflexivity. Qed.
Lemma receives_alike top H j j1 p l l1 : receives top H j j1 -> nth_error (j_layers j) p = Some l -> nth_error (j_layers j1) p = Some l1 ->
  same_except [F_Hreserved] l l1.
Proof.
  intros [(_ & _ & P) _] Hl Hl1. destruct (P p l l1 Hl Hl1) as [A B].
  destruct (addressed_dec top (SReserved (still H)) (j_layers j) p) as [X|X].
  - destruct (A X) as [_ [_ Y]]. exact Y.
  - rewrite (B X). apply same_refl.
Qed.
Lemma receives_length top H j j1 : receives top H j j1 -> length (j_layers j1) = length (j_layers j).
Proof. intros [(_ & L & _) _]. exact L. Qed.
Lemma same_id l l1 : same_except [F_Hreserved] l l1 -> l_id l1 = l_id l.
Proof. intros H. apply (H F_id). not_in. Qed.
Lemma receives_first top H j j1 l1 : receives top H j j1 -> first_with top j1 l1 ->
  exists l, first_with top j l /\ same_except [F_Hreserved] l l1.
Proof.
  intros HR (p & Hp & Hid & Hb). assert (L := receives_length _ _ _ _ HR). destruct (nth_some (j_layers j) p) as [l Hl]; [apply nth_lt in Hp; lia|].
  assert (S := receives_alike _ _ _ _ _ _ _ HR Hl Hp). exists l. split; [|exact S]. exists p. split; [exact Hl|]. split; [rewrite <- (same_id _ _ S); exact Hid|].
  intros q k Hq Hk. destruct (nth_some (j_layers j1) q) as [k1 Hk1]; [apply nth_lt in Hk; lia|]. rewrite <- (same_id _ _ (receives_alike _ _ _ _ _ _ _ HR Hk Hk1)).
  exact (Hb q k1 Hq Hk1).
Qed.
Lemma receives_first' top H j j1 l : receives top H j j1 -> first_with top j l ->
  exists l1, first_with top j1 l1 /\ same_except [F_Hreserved] l l1.
Proof.
  intros HR (p & Hp & Hid & Hb). assert (L := receives_length _ _ _ _ HR). destruct (nth_some (j_layers j1) p) as [l1 Hl]; [apply nth_lt in Hp; lia|].
  assert (S := receives_alike _ _ _ _ _ _ _ HR Hp Hl). exists l1. split; [|exact S]. exists p. split; [exact Hl|]. split; [rewrite (same_id _ _ S); exact Hid|].
  intros q k Hq Hk. destruct (nth_some (j_layers j) q) as [k1 Hk1]; [apply nth_lt in Hk; lia|]. rewrite (same_id _ _ (receives_alike _ _ _ _ _ _ _ HR Hk1 Hk)).
  exact (Hb q k1 Hq Hk1).
Qed.
(** Looking at elements that already received their field makes no difference. *)
Lemma view_same f cs top js js1 i H : indifferent f -> length js1 = length js ->
  (forall q j j1, nth_error js q = Some j -> nth_error js1 q = Some j1 -> exists K, receives top K j j1) ->
  (field_of_others f cs top (length js) (fun q => nth_error (if Nat.ltb q i then js1 else js) q) i H <->
   field_of_others f cs top (length js) (fun q => nth_error js q) i H).
Proof.
  intros HI L HR. split; intros (hs & LH & E & P); exists hs; (split; [exact LH|]); (split; [exact E|]); intros q h Hq; specialize (P q h Hq);
    destruct (Nat.eq_dec q i); try exact P; destruct P as (ri & rq & ji & jq & li & lq & A1 & A2 & A3 & A4 & A5 & A6 & A7);
    rewrite Nat.ltb_irrefl in *.
  - destruct (Nat.ltb_spec q i) as [Hlt|Hlt]; [|exists ri, rq, ji, jq, li, lq; auto 10].
    destruct (nth_some js q) as [j Hj]; [apply nth_lt in A4; lia|]. destruct (HR q j jq Hj A4) as [K HK].
    destruct (receives_first _ _ _ _ _ HK A6) as (l & Hl & S). exists ri, rq, ji, j, li, l. do 6 (split; [assumption|]).
    rewrite <- (HI ri rq li li l lq (same_refl _ _) S). exact A7.
  - destruct (Nat.ltb_spec q i) as [Hlt|Hlt]; [|exists ri, rq, ji, jq, li, lq; auto 10].
    destruct (nth_some js1 q) as [j1 Hj1]; [apply nth_lt in A4; lia|]. destruct (HR q jq j1 A4 Hj1) as [K HK].
    destruct (receives_first' _ _ _ _ _ HK A6) as (l & Hl & S). exists ri, rq, ji, j1, li, l. do 6 (split; [assumption|]).
    rewrite (HI ri rq li li lq l (same_refl _ _) S). exact A7.
Qed.
Lemma step_views f cs top r t dt js js' : indifferent f ->
  (group_step_sequential f cs top r t dt js js' <-> group_step f cs top r t dt js js').
Proof.
  intros HI. unfold group_step, group_step_sequential, group_step_seeing. split; intros (L & js1 & L1 & P); (split; [exact L|]); exists js1; (split; [exact L1|]).
  - assert (HR : forall q j j1, nth_error js q = Some j -> nth_error js1 q = Some j1 -> exists K, receives top K j j1).
    { intros q j j1 Hj Hj1. destruct (nth_some js' q) as [j' Hj']; [apply nth_lt in Hj; lia|]. destruct (P q j j1 j' Hj Hj1 Hj') as [(K & _ & HK) _]. eauto. }
    intros i j j1 j' Hj Hj1 Hj'. destruct (P i j j1 j' Hj Hj1 Hj') as [(H & F & RC) RUN]. split; [|exact RUN]. exists H. split; [|exact RC].
    exact (proj1 (view_same f cs top js js1 i H HI L1 HR) F).
  - assert (HR : forall q j j1, nth_error js q = Some j -> nth_error js1 q = Some j1 -> exists K, receives top K j j1).
    { intros q j j1 Hj Hj1. destruct (nth_some js' q) as [j' Hj']; [apply nth_lt in Hj; lia|]. destruct (P q j j1 j' Hj Hj1 Hj') as [(K & _ & HK) _]. eauto. }
    intros i j j1 j' Hj Hj1 Hj'. destruct (P i j j1 j' Hj Hj1 Hj') as [(H & F & RC) RUN]. split; [|exact RUN]. exists H. split; [|exact RC].
    exact (proj2 (view_same f cs top js js1 i H HI L1 HR) F).
Qed.
Lemma step_simultaneous t dt r g g' : indifferent (g_fn g) -> (stepFunctionalSolver t dt r g = (g', Ok tt) <->
  g' = set_g_js (g_js g') g /\ group_step (g_fn g) (g_coords g) (g_top g) r t dt (g_js g) (g_js g')).
Proof. intros HI. rewrite step_sequential, (step_views _ _ _ _ _ _ _ _ HI). reflexivity. Qed.
(** The built-in functions. *)
Lemma builtin_indifferent : indifferent computeDipoleInteraction /\ indifferent computeDipoleInteractionNoumra /\ indifferent nullDipoleInteraction.
Proof.
  assert (S : forall l l', same_except [F_Hreserved] l l' -> l_mag l' = l_mag l /\ l_thickness l' = l_thickness l /\ l_cellSurface l' = l_cellSurface l /\ l_Ms l' = l_Ms l).
  { intros l l' H. split; [apply (H F_mag); not_in|]. split; [apply (H F_thickness); not_in|]. split; [apply (H F_cellSurface); not_in|apply (H F_Ms); not_in]. }
  split; [|split; [|intros r1 r2 l1 l1' l2 l2' _ _; reflexivity]]; intros r1 r2 l1 l1' l2 l2' _ H; destruct (S _ _ H) as (A & B & C & D).
  - unfold computeDipoleInteraction. rewrite A, B, C, D. reflexivity.
  - unfold computeDipoleInteractionNoumra. rewrite A, B, C, D. reflexivity.
Qed.
(** ** Order of the elements *)
Lemma Sum_perm hs ks : Permutation hs ks -> Sum hs = Sum ks.
Proof.
  induction 1 as [|x l l' _ IH|x y l|l l' l'' _ IH1 _ IH2]; [reflexivity|rewrite !Sum_cons; congruence| |congruence].
  rewrite !Sum_cons, <- !Plus_assoc. f_equal. apply Plus_comm.
Qed.
Lemma reindex {A} (f : nat -> nat) (xs : list A) : (forall q, (q < length xs)%nat -> (f q < length xs)%nat) ->
  exists ys, length ys = length xs /\ forall q, (q < length xs)%nat -> nth_error ys q = nth_error xs (f q).
Proof.
  intros H. destruct xs as [|d xs']; [exists []; split; [reflexivity|]; cbn; intros; lia|]. set (xs := d :: xs') in *.
  exists (map (fun q => nth (f q) xs d) (seq 0 (length xs))). split; [rewrite map_length, seq_length; reflexivity|].
  intros q Hq. rewrite nth_error_map, nth_error_seq0 by exact Hq. cbn [option_map]. symmetry. apply nth_error_nth'. apply H, Hq.
Qed.
Lemma reindex_all {A} (f : nat -> nat) (xs ys zs : list A) : (forall q, nth_error ys q = nth_error xs (f q)) -> length ys = length xs ->
  forall q, (q < length xs <-> f q < length xs)%nat.
Proof.
  intros H L q. specialize (H q). rewrite <- L at 1. rewrite <- !nth_error_Some, H. reflexivity.
Qed.
Lemma step_rearranged t dt r f g g' g2 : indifferent (g_fn g) -> rearranged f g g2 -> stepFunctionalSolver t dt r g = (g', Ok tt) ->
  exists g2', stepFunctionalSolver t dt r g2 = (g2', Ok tt) /\ rearranged f g' g2'.
Proof.
  intros HI (INJ & ET & EF & LJ & EC & EJ) E. apply (step_simultaneous _ _ _ _ _ HI) in E. destruct E as [Eg (L & js1 & L1 & P)].
  assert (R := reindex_all f (g_js g) (g_js g2) [] EJ LJ).
  destruct (reindex f (g_js g')) as (js2' & L2' & N2'). { intros q Hq. rewrite L in *. exact (proj1 (R q) Hq). }
  destruct (reindex f js1) as (js21 & L21 & N21). { intros q Hq. rewrite L1 in *. exact (proj1 (R q) Hq). }
  assert (X2' : forall q, nth_error js2' q = nth_error (g_js g') (f q)).
  { intros q. destruct (Nat.lt_ge_cases q (length (g_js g'))) as [Hq|Hq]; [apply N2', Hq|].
    rewrite (proj2 (nth_error_None js2' q)) by lia. symmetry. apply nth_error_None. destruct (Nat.lt_ge_cases (f q) (length (g_js g'))) as [B|B]; [|exact B].
    rewrite L in B. apply (proj2 (R q)) in B. lia. }
  exists (set_g_js js2' g2). split.
  - apply step_simultaneous; [rewrite EF; exact HI|]. cbn [g_js set_g_js]. split; [reflexivity|]. rewrite EF, ET. split; [congruence|]. exists js21. split; [congruence|].
    intros i j j1 j' Hj Hj1 Hj'. rewrite EJ in Hj. rewrite N21 in Hj1 by (apply nth_lt in Hj1; lia). rewrite X2' in Hj'.
    destruct (P (f i) j j1 j' Hj Hj1 Hj') as [(H & F & RC) RUN]. split; [|exact RUN]. exists H. split; [|exact RC].
    destruct F as (hs & LH & -> & PH). destruct (reindex f hs) as (ks & LK & NK). { intros q Hq. rewrite LH in *. exact (proj1 (R q) Hq). }
    exists ks. split; [congruence|]. split.
    + apply Sum_perm. apply Permutation_nth_error. split; [congruence|]. exists f. split; [intros a b; apply INJ|].
      intros q. destruct (Nat.lt_ge_cases q (length hs)) as [Hq|Hq]; [apply NK, Hq|].
      rewrite (proj2 (nth_error_None ks q)) by lia. symmetry. apply nth_error_None. destruct (Nat.lt_ge_cases (f q) (length hs)) as [B|B]; [|exact B].
      rewrite LH in B. apply (proj2 (R q)) in B. lia.
    + intros q h Hq. assert (Hlt := nth_lt _ _ _ Hq). rewrite LK in Hlt. rewrite NK in Hq by exact Hlt. specialize (PH (f q) h Hq).
      destruct (Nat.eq_dec q i) as [->|NE]; [destruct (Nat.eq_dec (f i) (f i)); [exact PH|contradiction]|].
      destruct (Nat.eq_dec (f q) (f i)) as [X|_]; [apply INJ in X; contradiction|]. destruct PH as (ri & rq & ji & jq & li & lq & A1 & A2 & A3 & A4 & A5).
      exists ri, rq, ji, jq, li, lq. rewrite !EC, !EJ. auto.
  - rewrite Eg. unfold rearranged. cbn [g_js g_top g_fn g_coords set_g_js]. split; [exact INJ|]. split; [exact ET|]. split; [exact EF|]. split; [congruence|].
    split; [exact EC|exact X2'].
Qed.
(** ** Construction *)
Lemma has_duplicate_iff cs : has_duplicate cs = false <-> NoDup cs.
Proof.
  induction cs as [|c cs IH]; cbn [has_duplicate]; [split; [constructor|reflexivity]|]. rewrite orb_false_iff, IH. split.
  - intros [A B]. constructor; [|exact B]. intros X. assert (Y : existsb (veqb c) cs = true) by (apply existsb_exists; exists c; split; [exact X|apply veqb_iff; reflexivity]). congruence.
  - intros X. inversion X as [|? ? A B]; subst. split; [|exact B]. destruct (existsb (veqb c) cs) eqn:Y; [|reflexivity]. exfalso. apply existsb_exists in Y.
    destruct Y as (d & Hd & Y). apply veqb_iff in Y. subst d. contradiction.
Qed.
Lemma mkGroup_iff cs js top g : mkGroup cs js top = Ok g <->
  length cs = length js /\ cs <> [] /\ NoDup cs /\ g = GRP top cs js computeDipoleInteraction.
Proof.
  unfold mkGroup. destruct (Nat.eqb_spec (length cs) (length js)) as [A|A]; cbn [negb]; [|split; [discriminate|intros [X _]; contradiction]].
  destruct cs as [|c cs].
  - cbn. split; [discriminate|intros (_ & X & _); contradiction].
  - destruct (Nat.eqb_spec (length (c :: cs)) 0) as [X|_]; [discriminate|]. destruct (Nat.eqb_spec (length js) 0) as [X|_]; [cbn in A; lia|]. cbn [orb].
    destruct (has_duplicate (c :: cs)) eqn:D.
    + split; [discriminate|]. intros (_ & _ & X & _). apply has_duplicate_iff in X. congruence.
    + apply has_duplicate_iff in D. split; [intros E; injection E as <-; repeat split; [exact A|discriminate|exact D]|intros (_ & _ & _ & ->); reflexivity].
Qed.
Lemma mkGroup_refuses cs js top : (length cs <> length js \/ cs = [] \/ ~ NoDup cs) -> exists msg, mkGroup cs js top = Err (Throw msg).
Proof.
  intros H. destruct (mkGroup cs js top) as [g|e] eqn:E.
  - apply mkGroup_iff in E. destruct E as (A & B & C & _). destruct H as [X|[X|X]]; contradiction.
  - unfold mkGroup in E. destruct (negb _); [injection E as <-; eauto|]. destruct (_ || _); [injection E as <-; eauto|]. destruct (has_duplicate _); [injection E as <-; eauto|discriminate].
Qed.
