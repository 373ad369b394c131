(** Reservoirs: cells, tensor table, constructor and the field of one cell. *)
From Verif Require Export P_GroupRun.
Open Scope R_scope.
Open Scope st_scope.

(** ** Cells *)
Lemma index2_iff {A} (m : list (list A)) p q x : at_index2 m (p, q) = Ok x <-> entry m p q = Some x.
Proof.
  unfold at_index2, entry, at_index. cbn [fst snd]. destruct (nth_error m p) as [row|]; cbn [rbind]; [|split; discriminate].
  destruct (nth_error row q); split; congruence.
Qed.
Lemma index2_none {A} (m : list (list A)) p q : entry m p q = None -> at_index2 m (p, q) = Err Undefined.
Proof.
  unfold at_index2, entry, at_index. cbn [fst snd]. destruct (nth_error m p) as [row|]; cbn [rbind]; [|reflexivity].
  destruct (nth_error row q); [discriminate|reflexivity].
Qed.
Lemma coordinates_iff cols i p : getMatrixCoordinates cols i = Ok p <-> cols <> 0%nat /\ p = (i / cols, i mod cols)%nat.
Proof. unfold getMatrixCoordinates. destruct (Nat.eqb_spec cols 0) as [->|H]; split; try discriminate; intuition congruence. Qed.
Lemma cell_iff {A} (m : list (list A)) cols i x :
  (p <-- getMatrixCoordinates cols i ;; at_index2 m p) = Ok x <-> cols <> 0%nat /\ cell m cols i = Some x.
Proof.
  unfold getMatrixCoordinates, cell. destruct (Nat.eqb_spec cols 0) as [H|H]; cbn [rbind]; [split; [discriminate|intuition]|]. rewrite index2_iff. intuition.
Qed.
Lemma entry_row {A} (m : list (list A)) p q x : entry m p q = Some x <-> exists row, nth_error m p = Some row /\ nth_error row q = Some x.
Proof.
  unfold entry. destruct (nth_error m p) as [row|]; split.
  - eauto.
  - intros (r & E & H). injection E as <-. exact H.
  - discriminate.
  - intros (r & E & _). discriminate.
Qed.
Lemma matrix_ext {A} (m m' : list (list A)) : same_shape m m' -> (forall p q, entry m' p q = entry m p q) -> m' = m.
Proof.
  intros [L S] H. apply list_nth_ext; [exact L|]. intros p row' row H1 H2. apply list_nth_ext; [exact (S p row row' H2 H1)|].
  intros q a b Ha Hb. specialize (H p q). unfold entry in H. rewrite H1, H2, Ha, Hb in H. congruence.
Qed.
Lemma shape_self {A} (m : list (list A)) : same_shape m m.
Proof. split; [reflexivity|]. intros p r r' H1 H2. congruence. Qed.
Lemma shape_compose {A} (a b c : list (list A)) : same_shape a b -> same_shape b c -> same_shape a c.
Proof.
  intros [L1 S1] [L2 S2]. split; [congruence|]. intros p r r' H1 H2. destruct (nth_error_same_length _ _ _ _ L1 H1) as [s Hs].
  rewrite (S2 p s r' Hs H2). exact (S1 p r s H1 Hs).
Qed.
Lemma set2_entry p q l m : entry m p q <> None -> forall a b, entry (set2 (p, q) l m) a b = if (Nat.eqb a p && Nat.eqb b q)%bool then Some l else entry m a b.
Proof.
  unfold entry, set2. cbn [fst snd]. destruct (nth_error m p) as [row|] eqn:E; [|intros H; destruct (H eq_refl)]. intros H a b.
  assert (Hp := nth_lt _ _ _ E). assert (Hq : (q < length row)%nat) by (apply nth_error_Some; exact H).
  destruct (Nat.eqb_spec a p) as [->|NE]; cbn [andb].
  - rewrite set_nth_same by exact Hp. rewrite E. destruct (Nat.eqb_spec b q) as [->|NB]; [apply set_nth_same, Hq|apply set_nth_other, NB].
  - rewrite set_nth_other by exact NE. reflexivity.
Qed.
Lemma set2_shape p q l m : same_shape m (set2 (p, q) l m).
Proof.
  unfold set2. cbn [fst snd]. destruct (nth_error m p) as [row|] eqn:E; [|apply shape_self]. split; [apply set_nth_length|].
  intros a r r' H1 H2. assert (Hp := nth_lt _ _ _ E). destruct (Nat.eq_dec a p) as [->|NE].
  - rewrite set_nth_same in H2 by exact Hp. injection H2 as <-. rewrite set_nth_length. congruence.
  - rewrite set_nth_other in H2 by exact NE. congruence.
Qed.
Lemma same_position cols a b : cols <> 0%nat -> (a / cols = b / cols)%nat -> (a mod cols = b mod cols)%nat -> a = b.
Proof. intros H E1 E2. rewrite (Nat.div_mod a cols H), (Nat.div_mod b cols H). congruence. Qed.
Lemma position_bound rows cols e : (e < rows * cols)%nat -> (e / cols < rows /\ e mod cols < cols)%nat.
Proof.
  intros H. assert (C : cols <> 0%nat) by (intros ->; lia). split; [apply Nat.div_lt_upper_bound; [exact C|lia]|apply Nat.mod_upper_bound, C].
Qed.

(** ** Reading one number per cell *)
Lemma collect_iff {A} (f : layer -> A) ls cols n : forall i xs, collect f ls cols n i = Ok xs <->
  (n = 0%nat \/ cols <> 0%nat) /\ length xs = n /\ forall e x, nth_error xs e = Some x -> exists l, cell ls cols (i + e) = Some l /\ x = f l.
Proof.
  induction n as [|n IH]; intros i xs; cbn [collect].
  - split.
    + intros E. injection E as <-. split; [auto|]. split; [reflexivity|]. intros [|e] x H; discriminate.
    + intros (_ & L & _). destruct xs; [reflexivity|discriminate].
  - destruct (getMatrixCoordinates cols i) as [c|er] eqn:EC.
    2:{ cbn [rbind]. split; [discriminate|]. intros ([H|H] & _); [discriminate|]. unfold getMatrixCoordinates in EC. destruct (Nat.eqb_spec cols 0); [contradiction|discriminate]. }
    cbn [rbind]. apply coordinates_iff in EC. destruct EC as [HC ->]. destruct (at_index2 ls _) as [l|er] eqn:EL.
    2:{ cbn [rbind]. split; [discriminate|]. intros (_ & L & P). destruct xs as [|x xs]; [discriminate|]. destruct (P 0%nat x eq_refl) as (l & X & _).
        rewrite Nat.add_0_r in X. apply index2_iff in X. congruence. }
    cbn [rbind]. apply index2_iff in EL. destruct (collect f ls cols n (S i)) as [rest|er] eqn:ER; cbn [rbind].
    + apply IH in ER. destruct ER as (_ & L & P). split.
      * intros E. injection E as <-. split; [auto|]. split; [cbn; congruence|]. intros [|e] x H.
        -- injection H as <-. exists l. rewrite Nat.add_0_r. auto.
        -- rewrite <- Nat.add_succ_comm. exact (P e x H).
      * intros (_ & L' & P'). destruct xs as [|x xs]; [discriminate|]. f_equal. f_equal.
        -- destruct (P' 0%nat x eq_refl) as (l' & X & ->). rewrite Nat.add_0_r in X. unfold cell in X. congruence.
        -- cbn in L'. apply list_nth_ext; [congruence|]. intros e a b Ha Hb. destruct (P e a Ha) as (l1 & X1 & ->). destruct (P' (S e) b Hb) as (l2 & X2 & ->).
           rewrite <- Nat.add_succ_comm in X2. congruence.
    + split; [discriminate|]. intros (_ & L' & P'). destruct xs as [|x xs]; [discriminate|]. exfalso.
      assert (X : collect f ls cols n (S i) = Ok xs).
      { apply IH. split; [auto|]. split; [cbn in L'; congruence|]. intros e y H. rewrite Nat.add_succ_comm. exact (P' (S e) y H). }
      congruence.
Qed.
Lemma collect_cells {A} (f : layer -> A) ls cols n xs : (0 < n)%nat -> (collect f ls cols n 0 = Ok xs <-> cols <> 0%nat /\ per_cell ls cols n f xs).
Proof.
  intros Hn. rewrite collect_iff. unfold per_cell. cbn [Nat.add]. split; [intros ([H|H] & R); [lia|auto]|intros [H R]; auto].
Qed.
Lemma per_cell_det {A} ls cols n (f : layer -> A) xs ys : per_cell ls cols n f xs -> per_cell ls cols n f ys -> xs = ys.
Proof.
  intros [L1 P1] [L2 P2]. apply list_nth_ext; [congruence|]. intros e a b Ha Hb. destruct (P1 e a Ha) as (l1 & X1 & ->). destruct (P2 e b Hb) as (l2 & X2 & ->). congruence.
Qed.
Lemma per_cell_exists {A} ls cols n (f : layer -> A) : (forall e, (e < n)%nat -> exists l, cell ls cols e = Some l) -> exists xs, per_cell ls cols n f xs.
Proof.
  induction n as [|n IH]; intros H; [exists []; split; [reflexivity|intros [|e] x X; discriminate]|].
  destruct IH as (xs & L & P); [intros e He; apply H; lia|]. destruct (H n ltac:(lia)) as [l Hl]. exists (xs ++ [f l])%list.
  split; [rewrite app_length; cbn; lia|]. intros e x X. destruct (Nat.lt_ge_cases e n) as [Hlt|Hge].
  - rewrite nth_error_app1 in X by lia. exact (P e x X).
  - rewrite nth_error_app2 in X by lia. rewrite L in X. destruct (e - n)%nat as [|k] eqn:Ek; [|destruct k; discriminate]. injection X as <-.
    exists l. split; [|reflexivity]. replace e with n by lia. exact Hl.
Qed.

(** ** Tensor table *)
Definition partners (e : nat) (ps : list (nat * nat)) : list nat :=
  flat_map (fun ab => if Nat.eqb (fst ab) e then [snd ab] else if Nat.eqb (snd ab) e then [fst ab] else []) ps.
Lemma partners_app e a b : partners e (a ++ b) = (partners e a ++ partners e b)%list.
Proof. apply flat_map_app. Qed.
Lemma partners_map e a k : forall s, (a < s)%nat ->
  partners e (map (fun b => (a, b)) (seq s k)) = if Nat.eqb a e then seq s k else if (Nat.leb s e && Nat.ltb e (s + k))%bool then [a] else [].
Proof.
  induction k as [|k IH]; intros s Hs; cbn [seq map].
  - destruct (Nat.eqb a e); [reflexivity|]. destruct (Nat.leb_spec s e), (Nat.ltb_spec e (s + 0)); cbn [andb]; try reflexivity; lia.
  - unfold partners in *. cbn [flat_map fst snd]. rewrite (IH (S s)) by lia. destruct (Nat.eqb_spec a e) as [->|NE]; [reflexivity|].
    destruct (Nat.eqb_spec s e) as [->|NS]; cbn [app];
    repeat match goal with |- context [Nat.leb ?x ?y] => destruct (Nat.leb_spec x y) | |- context [Nat.ltb ?x ?y] => destruct (Nat.ltb_spec x y) end; cbn [andb]; try reflexivity; lia.
Qed.
Lemma partners_pairs n e : (e < n)%nat -> partners e (pairs n) = (seq 0 e ++ seq (S e) (n - S e))%list.
Proof.
  intros He. unfold pairs.
  assert (G : forall k s, (s + k <= n)%nat -> partners e (flat_map (fun a => map (fun b => (a, b)) (seq (S a) (n - S a))) (seq s k)) =
    (seq s (Nat.min k (e - s)) ++ (if (Nat.leb s e && Nat.ltb e (s + k))%bool then seq (S e) (n - S e) else []))%list).
  { induction k as [|k IH]; intros s Hs; cbn [seq flat_map].
    - unfold partners. cbn [flat_map Nat.min seq app]. destruct (Nat.leb_spec s e), (Nat.ltb_spec e (s + 0)); cbn [andb]; try reflexivity; lia.
    - rewrite partners_app, partners_map by lia. rewrite (IH (S s)) by lia. destruct (Nat.eqb_spec s e) as [->|NE].
      + rewrite Nat.sub_diag, Nat.min_0_r. replace (e - S e)%nat with 0%nat by lia. rewrite Nat.min_0_r.
        destruct (Nat.leb_spec e e), (Nat.leb_spec (S e) e), (Nat.ltb_spec e (e + S k)); cbn [andb seq app]; try lia. rewrite app_nil_r. reflexivity.
      + destruct (Nat.lt_ge_cases s e) as [Hlt|Hge].
        * replace (Nat.min (S k) (e - s)) with (S (Nat.min k (e - S s))) by lia. cbn [seq app].
          destruct (Nat.leb_spec (S s) e), (Nat.ltb_spec e (S s + (n - S s))), (Nat.leb_spec s e), (Nat.ltb_spec e (S s + k)), (Nat.ltb_spec e (s + S k)); cbn [andb app]; try reflexivity; lia.
        * replace (e - s)%nat with 0%nat by lia. replace (e - S s)%nat with 0%nat by lia. rewrite !Nat.min_0_r.
          destruct (Nat.leb_spec (S s) e), (Nat.leb_spec s e); cbn [andb app seq]; try reflexivity; lia. }
  rewrite G by lia. replace (Nat.min n (e - 0)) with e by lia. destruct (Nat.leb_spec 0 e), (Nat.ltb_spec e (0 + n)); cbn [andb]; try lia. reflexivity.
Qed.
Lemma partner_nth n e i : (e < n)%nat -> (i < n - 1)%nat -> nth_error (partners e (pairs n)) i = Some (partner e i).
Proof.
  intros He Hi. rewrite partners_pairs by exact He. unfold partner. destruct (Nat.ltb_spec i e) as [H|H].
  - rewrite nth_error_app1 by (rewrite seq_length; exact H). apply nth_error_seq0, H.
  - rewrite nth_error_app2 by (rewrite seq_length; exact H). rewrite seq_length.
    rewrite (nth_error_nth' _ 0%nat) by (rewrite seq_length; lia). rewrite seq_nth by lia. f_equal. lia.
Qed.
Lemma partners_length n e : (e < n)%nat -> length (partners e (pairs n)) = (n - 1)%nat.
Proof. intros H. rewrite partners_pairs, app_length, !seq_length by exact H. lia. Qed.
Lemma pairs_in n a b : In (a, b) (pairs n) <-> (a < b < n)%nat.
Proof.
  unfold pairs. rewrite in_flat_map. split.
  - intros (x & Hx & H). apply in_map_iff in H. destruct H as (y & E & Hy). injection E as <- <-. apply in_seq in Hx, Hy. lia.
  - intros [H1 H2]. exists a. split; [apply in_seq; lia|]. apply in_map_iff. exists b. split; [reflexivity|]. apply in_seq. lia.
Qed.
Lemma push_at_nth {A} i (x : A) m e : nth_error (push_at i x m) e =
  match nth_error m e with Some row => Some (row ++ (if Nat.eqb e i then [x] else []))%list | None => None end.
Proof.
  unfold push_at. destruct (nth_error m i) as [row|] eqn:E.
  - destruct (Nat.eqb_spec e i) as [->|NE].
    + rewrite set_nth_same by exact (nth_lt _ _ _ E). rewrite E. reflexivity.
    + rewrite set_nth_other by exact NE. destruct (nth_error m e); [rewrite app_nil_r|]; reflexivity.
  - destruct (Nat.eqb_spec e i) as [->|NE]; [rewrite E; reflexivity|]. destruct (nth_error m e); [rewrite app_nil_r|]; reflexivity.
Qed.
Definition between (coords : list (list cvec)) (cols e b : nat) (t : tensor) : Prop :=
  exists ra rb, cell coords cols e = Some ra /\ cell coords cols b = Some rb /\ dipole_map (Minus rb ra) t.
Lemma fill_sound cols coords ps : (forall a b, In (a, b) ps -> a <> b) -> forall acc ts, fill_tensors cols coords ps acc = Ok ts ->
  (forall a b, In (a, b) ps -> exists t, between coords cols a b t) /\
  length ts = length acc /\ forall e row, nth_error acc e = Some row -> exists new, nth_error ts e = Some (row ++ new)%list /\
    Forall2 (between coords cols e) (partners e ps) new.
Proof.
  induction ps as [|[a b] ps IH]; intros NE acc ts E; cbn [fill_tensors] in E.
  - injection E as <-. split; [intros a b []|]. split; [reflexivity|]. intros e row H. exists []. rewrite app_nil_r. split; [exact H|constructor].
  - destruct (getMatrixCoordinates cols a) as [ca|] eqn:Ca; [|discriminate]. destruct (getMatrixCoordinates cols b) as [cb|] eqn:Cb; [|discriminate]. cbn [rbind] in E.
    apply coordinates_iff in Ca, Cb. destruct Ca as [HC ->], Cb as [_ ->].
    destruct (at_index2 coords (a / cols, a mod cols)%nat) as [ra|] eqn:Ra; [|discriminate]. destruct (at_index2 coords (b / cols, b mod cols)%nat) as [rb|] eqn:Rb; [|discriminate]. cbn [rbind] in E.
    destruct (reservoir_tensor ra rb) as [t1|] eqn:T1; [|discriminate]. destruct (reservoir_tensor rb ra) as [t2|] eqn:T2; [|discriminate]. cbn [rbind] in E.
    apply index2_iff in Ra, Rb. unfold reservoir_tensor in T1, T2. rewrite vsub_Minus in T1, T2. apply dipole_tensor_iff in T1, T2.
    apply IH in E; [|intros x y H; apply NE; right; exact H]. destruct E as (H1 & L & H2). split; [|split].
    + intros x y [X|X]; [|exact (H1 x y X)]. injection X as <- <-. exists t1, ra, rb. auto.
    + rewrite L. unfold push_at. destruct (nth_error acc a); [|destruct (nth_error acc b); rewrite ?set_nth_length; reflexivity].
      destruct (nth_error _ b); rewrite ?set_nth_length; reflexivity.
    + intros e row He. assert (Q : nth_error (push_at b t2 (push_at a t1 acc)) e = Some ((row ++ (if Nat.eqb e a then [t1] else [])) ++ (if Nat.eqb e b then [t2] else []))%list)
        by (rewrite !push_at_nth, He; reflexivity).
      destruct (H2 _ _ Q) as (new & N & F). rewrite <- !app_assoc in N. eexists. split; [exact N|].
      assert (AB := NE a b (or_introl eq_refl)). unfold partners. cbn [flat_map fst snd]. fold (partners e ps).
      rewrite (Nat.eqb_sym e a), (Nat.eqb_sym e b). destruct (Nat.eqb_spec a e) as [->|NA].
      * destruct (Nat.eqb_spec b e); [congruence|]. cbn [app]. constructor; [|exact F]. exists ra, rb. auto.
      * destruct (Nat.eqb_spec b e) as [->|NB]; cbn [app]; [|exact F]. constructor; [|exact F]. exists rb, ra. auto.
Qed.
Lemma fill_total cols coords ps : cols <> 0%nat -> (forall a b, In (a, b) ps -> exists ra rb, cell coords cols a = Some ra /\ cell coords cols b = Some rb /\ ra <> rb) ->
  forall acc, exists ts, fill_tensors cols coords ps acc = Ok ts.
Proof.
  intros HC. assert (MM : forall u v, u <> v -> exists t, reservoir_tensor u v = Ok t).
  { intros u v H. unfold reservoir_tensor. rewrite vsub_Minus. destruct (dipole_tensor (Minus v u)) as [t|e] eqn:E; [eauto|]. exfalso.
    unfold dipole_tensor in E. rewrite vlength_Norm in E. destruct (fdiv 3 _) as [k|] eqn:EF; [discriminate|]. unfold fdiv in EF. destruct (Req_EM_T _ 0) as [Z|]; [|discriminate].
    assert (NZ : Norm (Minus v u) <> 0). { apply norm_nz. intros X. apply H. unfold Minus, Zero in X. destruct u as [ux uy uz], v as [vx vy vz]. cbn in X. injection X as X1 X2 X3. f_equal; lra. }
    assert (P := PI_RGT_0). apply Rmult_integral in Z. destruct Z as [Z|Z]; [lra|]. apply (pow_nonzero _ 5) in NZ. contradiction. }
  induction ps as [|[a b] ps IH]; intros H acc; cbn [fill_tensors]; [eauto|].
  destruct (H a b (or_introl eq_refl)) as (ra & rb & Ra & Rb & NE). rewrite !(proj2 (coordinates_iff _ _ _) (conj HC eq_refl)). cbn [rbind].
  unfold cell in Ra, Rb. apply index2_iff in Ra, Rb. rewrite Ra, Rb. cbn [rbind]. destruct (MM ra rb NE) as [t1 ->]. destruct (MM rb ra) as [t2 ->]; [congruence|]. cbn [rbind].
  apply IH. intros x y X. apply H. right. exact X.
Qed.
Definition distinct_cells (coords : list (list cvec)) (cols n : nat) : Prop :=
  forall a b, (a < b < n)%nat -> exists ra rb, cell coords cols a = Some ra /\ cell coords cols b = Some rb /\ ra <> rb.
Lemma table_det coords cols n t u : tensor_table coords cols n t -> tensor_table coords cols n u -> t = u.
Proof.
  intros [L1 P1] [L2 P2]. apply list_nth_ext; [congruence|]. intros e r1 r2 H1 H2. destruct (P1 e r1 H1) as [M1 Q1]. destruct (P2 e r2 H2) as [M2 Q2].
  apply list_nth_ext; [congruence|]. intros i a b Ha Hb. destruct (Q1 i a Ha) as (x & y & X & Y & D1). destruct (Q2 i b Hb) as (x' & y' & X' & Y' & D2).
  rewrite X in X'. rewrite Y in Y'. injection X' as <-. injection Y' as <-. exact (dipole_map_det _ _ _ D1 D2).
Qed.
Lemma matrix_sound cols coords n ts : computeReservoirDipoleMatrix n cols coords = Ok ts ->
  (2 <= n)%nat /\ distinct_cells coords cols n /\ tensor_table coords cols n ts.
Proof.
  unfold computeReservoirDipoleMatrix. destruct (Nat.ltb_spec n 2) as [H|H]; [discriminate|]. intros E. apply fill_sound in E.
  2:{ intros a b X. apply pairs_in in X. lia. }
  destruct E as (H1 & L & H2). rewrite repeat_length in L. split; [exact H|]. split.
  - intros a b X. apply pairs_in in X. destruct (H1 a b X) as (t & ra & rb & A & B & C & _). exists ra, rb. split; [exact A|]. split; [exact B|].
    intros ->. apply C. vring.
  - split; [exact L|]. intros e row He. assert (Hlt := nth_lt _ _ _ He). rewrite L in Hlt.
    destruct (H2 e []) as (new & N & F). { rewrite (nth_error_nth' _ []) by (rewrite repeat_length; exact Hlt). f_equal. apply nth_repeat. }
    cbn [app] in N. rewrite He in N. injection N as <-. apply Forall2_nth in F. destruct F as [LF F]. rewrite partners_length in LF by exact Hlt.
    split; [exact LF|]. intros i t Hi. assert (Hi' := nth_lt _ _ _ Hi). rewrite LF in Hi'.
    destruct (F i (partner e i) t (partner_nth n e i Hlt Hi') Hi) as (ra & rb & A & B & C). exists ra, rb. auto.
Qed.
Lemma matrix_iff cols coords n ts : computeReservoirDipoleMatrix n cols coords = Ok ts <->
  cols <> 0%nat /\ (2 <= n)%nat /\ distinct_cells coords cols n /\ tensor_table coords cols n ts.
Proof.
  split.
  - intros E. split; [|exact (matrix_sound _ _ _ _ E)]. intros ->. unfold computeReservoirDipoleMatrix in E. destruct (Nat.ltb_spec n 2) as [H|H]; [discriminate|].
    destruct n as [|[|n]]; try lia. discriminate.
  - intros (HC & H2 & D & T). assert (X : exists u, computeReservoirDipoleMatrix n cols coords = Ok u).
    { unfold computeReservoirDipoleMatrix. destruct (Nat.ltb_spec n 2); [lia|]. apply fill_total; [exact HC|]. intros a b X. apply pairs_in in X. exact (D a b X). }
    destruct X as [u E]. rewrite E. f_equal. apply matrix_sound in E. destruct E as (_ & _ & U). exact (table_det _ _ _ _ _ U T).
Qed.
(** ** Construction *)
Lemma mkReservoir_iff coords ls r : mkReservoir coords ls = Ok r <->
  exists first rest, coords = first :: rest /\ let n := (length coords * length first)%nat in
    (2 <= n)%nat /\ distinct_cells coords (length first) n /\
    r = RSV [] coords (repeat Zero n) (r_Ms r) (r_vol r) (r_tensors r) ls (length coords) (length first) /\
    per_cell ls (length first) n l_Ms (r_Ms r) /\ per_cell ls (length first) n (fun l => l_thickness l * l_cellSurface l) (r_vol r) /\
    tensor_table coords (length first) n (r_tensors r).
Proof.
  split.
  - intros E. unfold mkReservoir in E. destruct coords as [|first rest]; [discriminate|]. exists first, rest. split; [reflexivity|]. cbv zeta.
    set (coords := first :: rest) in *. set (n := (length coords * length first)%nat) in *.
    destruct (collect (fun l => l_thickness l * l_cellSurface l) ls (length first) n 0) as [vol|] eqn:EV; [|discriminate]. cbn [rbind] in E.
    destruct (collect l_Ms ls (length first) n 0) as [Ms|] eqn:EM; [|discriminate]. cbn [rbind] in E.
    destruct (computeReservoirDipoleMatrix n (length first) coords) as [ts|] eqn:ET; [|discriminate]. cbn [rbind] in E. injection E as <-.
    apply matrix_iff in ET. destruct ET as (HC & H2 & D & T). apply collect_cells in EV; [|lia]. apply collect_cells in EM; [|lia].
    cbn [r_Ms r_vol r_tensors]. rewrite vnull_Zero. split; [exact H2|]. split; [exact D|]. split; [reflexivity|]. split; [apply EM|]. split; [apply EV|exact T].
  - intros (first & rest & -> & H). cbv zeta in H. unfold mkReservoir. set (coords := first :: rest) in *. set (n := (length coords * length first)%nat) in *.
    destruct H as (H2 & D & Er & PM & PV & T). assert (HC : length first <> 0%nat) by (intros X; unfold n in H2; rewrite X in H2; lia).
    assert (Hn : (0 < n)%nat) by lia.
    rewrite (proj2 (collect_cells _ ls (length first) n _ Hn) (conj HC PV)). cbn [rbind]. rewrite (proj2 (collect_cells _ ls (length first) n _ Hn) (conj HC PM)). cbn [rbind].
    rewrite (proj2 (matrix_iff _ _ _ _) (conj HC (conj H2 (conj D T)))). cbn [rbind]. rewrite vnull_Zero. symmetry. f_equal. exact Er.
Qed.
Lemma mkReservoir_wired coords ls r : mkReservoir coords ls = Ok r -> wired r.
Proof.
  intros E. apply mkReservoir_iff in E. destruct E as (first & rest & -> & H). cbv zeta in H. destruct H as (H2 & D & Er & PM & PV & T).
  unfold wired, noElements. rewrite Er. cbn [r_coords r_cols r_rows r_Ms r_vol r_tensors r_layers]. split; [exact H2|]. split; [exact T|]. split; [apply PM|]. split; [apply PV|].
  intros e He. destruct PM as [L P]. destruct (nth_some (r_Ms r) e) as [x Hx]; [rewrite L; exact He|]. destruct (P e x Hx) as (l & X & _). eauto.
Qed.
(** ** The field of one cell *)
Lemma sum_dipoles_iff r ts : forall i acc H, sum_dipoles r ts i acc = Ok H <->
  exists hs, length hs = length ts /\ H = Plus acc (Sum hs) /\
    forall k h, nth_error hs k = Some h -> exists t m Ms, nth_error ts k = Some t /\ nth_error (r_frozen r) (i + k) = Some m /\ nth_error (r_Ms r) (i + k) = Some Ms /\
      h = Scal (Ms / MAGNETIC_PERMEABILITY) (MatVec t m).
Proof.
  induction ts as [|t ts IH]; intros i acc H; cbn [sum_dipoles].
  - split.
    + intros E. injection E as <-. exists []. split; [reflexivity|]. split; [rewrite Sum_nil, Plus_zero_r; reflexivity|]. intros [|k] h X; discriminate.
    + intros (hs & L & -> & _). destruct hs; [|discriminate]. rewrite Sum_nil, Plus_zero_r. reflexivity.
  - split.
    + intros E. destruct (at_index (r_frozen r) i) as [m|] eqn:Em; [|discriminate]. cbn [rbind] in E. destruct (at_index (r_Ms r) i) as [Ms|] eqn:EM; [|discriminate]. cbn [rbind] in E.
      apply at_index_iff in Em, EM. rewrite tensor_interaction_spec in E. apply IH in E. destruct E as (hs & L & -> & P).
      exists (Scal (Ms / MAGNETIC_PERMEABILITY) (MatVec t m) :: hs). split; [cbn; congruence|]. split; [rewrite Sum_cons, vadd_Plus, Plus_assoc; reflexivity|].
      intros [|k] h X; [injection X as <-; exists t, m, Ms; rewrite Nat.add_0_r; auto|]. rewrite <- Nat.add_succ_comm. exact (P k h X).
    + intros (hs & L & -> & P). destruct hs as [|h hs]; [discriminate|]. destruct (P 0%nat h eq_refl) as (t0 & m & Ms & X & A & B & ->). injection X as <-.
      rewrite Nat.add_0_r in A, B. apply at_index_iff in A, B. rewrite A, B. cbn [rbind]. rewrite tensor_interaction_spec. apply IH. exists hs.
      split; [cbn in L; congruence|]. split; [rewrite Sum_cons, vadd_Plus, Plus_assoc; reflexivity|]. intros k h X. rewrite Nat.add_succ_comm. exact (P (S k) h X).
Qed.
Lemma field_cell_iff r e H : wired r -> (e < noElements r)%nat ->
  ((exists v, nth_error (r_vol r) e = Some v /\ reservoir_dipole r e v = Ok H) <-> applied_field r (r_frozen r) e H).
Proof.
  intros (H2 & (LT & TT) & LM & LV & _) He. destruct (nth_some (r_tensors r) e) as [row Hrow]; [lia|]. destruct (TT e row Hrow) as [LR PR]. split.
  - intros (v & Hv & E). unfold reservoir_dipole in E. rewrite (proj2 (at_index_iff _ _ _) Hrow) in E. cbn [rbind] in E.
    destruct (sum_dipoles r row 0 vnull) as [h|] eqn:ES; [|discriminate]. cbn [rbind] in E. injection E as <-. apply sum_dipoles_iff in ES. destruct ES as (hs & L & -> & P).
    exists v, hs. split; [exact Hv|]. split; [congruence|]. split; [rewrite vscale_Scal, vnull_Zero, Plus_zero_l; reflexivity|].
    intros i h Hi. destruct (P i h Hi) as (t & m & Ms & X & A & B & ->). destruct (PR i t X) as (a & b & Ca & Cb & _ & D). exists a, b, m, Ms. cbn [Nat.add] in A, B. rewrite D. auto.
  - intros (v & hs & Hv & L & -> & P). exists v. split; [exact Hv|]. unfold reservoir_dipole. rewrite (proj2 (at_index_iff _ _ _) Hrow). cbn [rbind].
    rewrite (proj2 (sum_dipoles_iff r row 0 vnull (Sum hs))); [cbn [rbind]; rewrite vscale_Scal; reflexivity|]. exists hs. split; [congruence|].
    split; [rewrite vnull_Zero, Plus_zero_l; reflexivity|]. intros k h X. destruct (P k h X) as (a & b & m & Ms & Ca & Cb & A & B & ->).
    destruct (nth_some row k) as [t Ht]; [apply nth_lt in X; lia|]. destruct (PR k t Ht) as (a' & b' & Ca' & Cb' & _ & D). exists t, m, Ms.
    rewrite Ca in Ca'. rewrite Cb in Cb'. injection Ca' as <-. injection Cb' as <-. rewrite D. auto.
Qed.
Lemma applied_det r ms e H K : applied_field r ms e H -> applied_field r ms e K -> H = K.
Proof.
  intros (v & hs & V & L & -> & P) (v' & ks & V' & L' & -> & P'). rewrite V in V'. injection V' as <-. f_equal. f_equal. apply list_nth_ext; [congruence|].
  intros i a b Ha Hb. destruct (P i a Ha) as (x & y & m & M & X1 & X2 & X3 & X4 & ->). destruct (P' i b Hb) as (x' & y' & m' & M' & Y1 & Y2 & Y3 & Y4 & ->). congruence.
Qed.
Lemma applied_exists r ms e : wired r -> (e < noElements r)%nat -> length ms = noElements r -> exists H, applied_field r ms e H.
Proof.
  intros (H2 & (LT & TT) & LM & LV & _) He Lm. destruct (nth_some (r_tensors r) e) as [row Hrow]; [lia|]. destruct (TT e row Hrow) as [LR PR].
  destruct (nth_some (r_vol r) e) as [v Hv]; [lia|].
  assert (X : exists hs, length hs = length row /\ forall i h, nth_error hs i = Some h -> exists a b m Ms, cell (r_coords r) (r_cols r) e = Some a /\
      cell (r_coords r) (r_cols r) (partner e i) = Some b /\ nth_error ms i = Some m /\ nth_error (r_Ms r) i = Some Ms /\
      h = Scal (Ms / MAGNETIC_PERMEABILITY) (DipoleField (Minus b a) m)).
  { assert (G : forall k, (k <= length row)%nat -> exists hs, length hs = k /\ forall i h, nth_error hs i = Some h -> exists a b m Ms, cell (r_coords r) (r_cols r) e = Some a /\
      cell (r_coords r) (r_cols r) (partner e i) = Some b /\ nth_error ms i = Some m /\ nth_error (r_Ms r) i = Some Ms /\
      h = Scal (Ms / MAGNETIC_PERMEABILITY) (DipoleField (Minus b a) m)); [|apply G; lia].
    induction k as [|k IH]; intros Hk; [exists []; split; [reflexivity|intros [|i] h X; discriminate]|]. destruct IH as (hs & L & P); [lia|].
    destruct (nth_some row k ltac:(lia)) as [t Ht]. destruct (PR k t Ht) as (a & b & Ca & Cb & _). destruct (nth_some ms k ltac:(lia)) as [m Hm]. destruct (nth_some (r_Ms r) k ltac:(lia)) as [M HM].
    exists (hs ++ [Scal (M / MAGNETIC_PERMEABILITY) (DipoleField (Minus b a) m)])%list. split; [rewrite app_length; cbn; lia|]. intros i h X.
    destruct (Nat.lt_ge_cases i k) as [Hlt|Hge]; [rewrite nth_error_app1 in X by lia; exact (P i h X)|]. rewrite nth_error_app2 in X by lia. rewrite L in X.
    destruct (i - k)%nat as [|q] eqn:Eq; [|destruct q; discriminate]. injection X as <-. replace i with k by lia. exists a, b, m, M. auto. }
  destruct X as (hs & L & P). exists (Scal v (Sum hs)), v, hs. split; [exact Hv|]. split; [congruence|]. split; [reflexivity|exact P].
Qed.
