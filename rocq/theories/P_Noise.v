(** Proofs about the noise generators. *)
From Verif Require Export S_Noise P_Vec P_VecMore P_Monad.
Open Scope R_scope.
Open Scope st_scope.

(** ** Sums *)
Lemma Rsum_ext f g n : (forall k, (k < n)%nat -> f k = g k) -> Rsum f n = Rsum g n.
Proof. induction n as [|n IH]; intros H; cbn; [reflexivity|]. rewrite IH, (H n) by (intros; try apply H; lia). reflexivity. Qed.
Lemma Rsum_plus f g n : Rsum (fun k => f k + g k) n = Rsum f n + Rsum g n.
Proof. induction n as [|n IH]; cbn; [ring|]. rewrite IH. ring. Qed.
Lemma Rsum_minus f g n : Rsum (fun k => f k - g k) n = Rsum f n - Rsum g n.
Proof. induction n as [|n IH]; cbn; [ring|]. rewrite IH. ring. Qed.
Lemma Rsum_scal c f n : Rsum (fun k => c * f k) n = c * Rsum f n.
Proof. induction n as [|n IH]; cbn; [ring|]. rewrite IH. ring. Qed.
Lemma Rsum_opp f n : Rsum (fun k => - f k) n = - Rsum f n.
Proof. induction n as [|n IH]; cbn; [ring|]. rewrite IH. ring. Qed.
Lemma Rsum_zero f n : (forall k, (k < n)%nat -> f k = 0) -> Rsum f n = 0.
Proof. induction n as [|n IH]; intros H; cbn; [reflexivity|]. rewrite IH, (H n) by (intros; try apply H; lia). ring. Qed.
Lemma Rsum_swap f n m : Rsum (fun a => Rsum (fun b => f a b) m) n = Rsum (fun b => Rsum (fun a => f a b) n) m.
Proof.
  induction n as [|n IH]; cbn; [symmetry; apply Rsum_zero; reflexivity|]. rewrite IH, <- Rsum_plus. reflexivity.
Qed.
Lemma Rsum_split f n m : Rsum f (n + m) = Rsum f n + Rsum (fun k => f (n + k)%nat) m.
Proof. induction m as [|m IH]; [rewrite Nat.add_0_r; cbn; ring|]. rewrite Nat.add_succ_r. cbn. rewrite IH. ring. Qed.
Lemma Rsum_mult f g n m : Rsum f n * Rsum g m = Rsum (fun a => Rsum (fun b => f a * g b) m) n.
Proof. induction n as [|n IH]; cbn; [ring|]. rewrite <- IH, Rsum_scal. ring. Qed.
Lemma Rsum_single f n j : (j < n)%nat -> (forall k, (k < n)%nat -> k <> j -> f k = 0) -> Rsum f n = f j.
Proof.
  induction n as [|n IH]; intros Hj H; [lia|]. cbn. destruct (Nat.eq_dec j n) as [->|D].
  - rewrite Rsum_zero by (intros; apply H; lia). ring.
  - rewrite IH by (try lia; intros; apply H; lia). rewrite (H n) by lia. ring.
Qed.
Lemma Rsum_le f g n : (forall k, (k < n)%nat -> f k <= g k) -> Rsum f n <= Rsum g n.
Proof. induction n as [|n IH]; intros H; cbn; [lra|]. pose proof (H n ltac:(lia)). pose proof (IH ltac:(intros; apply H; lia)). lra. Qed.
Lemma Rsum_head f n : Rsum f (S n) = f 0%nat + Rsum (fun k => f (S k)) n.
Proof. change (S n) with (1 + n)%nat. rewrite Rsum_split. cbn. ring. Qed.

(** ** Pink noise *)
Lemma stage_0 p r : stage p r 0 = 0.
Proof. reflexivity. Qed.
Lemma stage_S p r k : stage p r (S k) = p * (stage p r k - r k) + r k.
Proof.
  unfold stage. cbn [Rsum]. replace (S k - 1 - k)%nat with 0%nat by lia. cbn [pow].
  rewrite (Rsum_ext _ (fun j => p * ((1 - p) * p ^ (k - 1 - j) * r j))).
  - rewrite Rsum_scal. ring.
  - intros j Hj. replace (S k - 1 - j)%nat with (S (k - 1 - j)) by lia. cbn [pow]. ring.
Qed.
Lemma pink_tick_iff M k k' x : pink_tick M k = (k', Ok x) <->
  k' = PK (3190 / 10000 * pk0 k + 6810 / 10000 * pk_rand k (pk_pos k))
          (7756 / 10000 * pk1 k + 2244 / 10000 * pk_rand k (pk_pos k + 1))
          (9613 / 10000 * pk2 k + 387 / 10000 * pk_rand k (pk_pos k + 2)) (pk_rand k) (pk_pos k + 3) /\
  x = 2 / M * (2109238 / 100000000 * pk0 k' + 7113478 / 100000000 * pk1 k' + 68873558 / 100000000 * pk2 k') - 78096274 / 100000000.
Proof.
  unfold pink_tick, pink_P0, pink_P1, pink_P2, pink_A0, pink_A1, pink_A2. replace (2 / M) with (2 * / M) by reflexivity.
  generalize (/ M). intros q. split.
  - intros E. injection E as <- <-. split; [f_equal; field|]. cbn [pk0 pk1 pk2]. field.
  - intros [-> ->]. cbn [pk0 pk1 pk2]. f_equal; [f_equal; field|]. f_equal. field.
Qed.
(** State after [k] ticks of a fresh generator. *)
Definition pink_after (rand : nat -> R) (k : nat) : pink :=
  PK (stage (3190 / 10000) (fun j => rand (3 * j)%nat) k) (stage (7756 / 10000) (fun j => rand (3 * j + 1)%nat) k)
     (stage (9613 / 10000) (fun j => rand (3 * j + 2)%nat) k) rand (3 * k).
Lemma pink_after_tick M rand k : pink_tick M (pink_after rand k) = (pink_after rand (S k), Ok (pink_sample M rand k)).
Proof.
  apply pink_tick_iff. split.
  - unfold pink_after. cbn [pk0 pk1 pk2 pk_rand pk_pos]. rewrite !stage_S.
    replace (3 * S k)%nat with (3 * k + 3)%nat by lia. f_equal; field.
  - reflexivity.
Qed.
Lemma calls_seq {S A} (tick : ST S A) (st : nat -> S) (out : nat -> A) : (forall k, tick (st k) = (st (Datatypes.S k), Ok (out k))) ->
  forall n k, calls tick n (st k) = (st (k + n)%nat, Ok (map out (seq k n))).
Proof.
  intros H. induction n as [|n IH]; intros k; cbn [calls seq map].
  - rewrite Nat.add_0_r. reflexivity.
  - unfold bind. rewrite H, IH. replace (Datatypes.S k + n)%nat with (k + Datatypes.S n)%nat by lia. reflexivity.
Qed.
Lemma pink_calls M rand n : calls (pink_tick M) n (mkPink rand) = (pink_after rand n, Ok (map (pink_sample M rand) (seq 0 n))).
Proof. exact (calls_seq (pink_tick M) (pink_after rand) (pink_sample M rand) (pink_after_tick M rand) n 0). Qed.
Lemma pink_clear_iff k k' x : pink_clear k = (k', x) <-> x = Ok tt /\ k' = PK 0 0 0 (pk_rand k) (pk_pos k).
Proof. unfold pink_clear, modify. split; [intros E; injection E as <- <-; auto|intros [-> ->]; reflexivity]. Qed.
Lemma stage_bound p r M k : 0 <= p <= 1 -> (forall j, 0 <= r j <= M) -> 0 <= stage p r k <= M.
Proof.
  intros Hp Hr. induction k as [|k IH]; [rewrite stage_0; specialize (Hr 0%nat); lra|]. rewrite stage_S. specialize (Hr k). nra.
Qed.
Lemma pink_state_bound M k k' x : (forall j, 0 <= pk_rand k j <= M) -> 0 <= pk0 k <= M /\ 0 <= pk1 k <= M /\ 0 <= pk2 k <= M ->
  pink_tick M k = (k', Ok x) -> 0 <= pk0 k' <= M /\ 0 <= pk1 k' <= M /\ 0 <= pk2 k' <= M.
Proof.
  intros Hr Hs E. apply pink_tick_iff in E. destruct E as [-> _]. cbn [pk0 pk1 pk2].
  pose proof (Hr (pk_pos k)). pose proof (Hr (pk_pos k + 1)%nat). pose proof (Hr (pk_pos k + 2)%nat). lra.
Qed.
Lemma pink_bound M rand k : 0 < M -> (forall j, 0 <= rand j <= M) -> - (78096274 / 100000000) <= pink_sample M rand k <= 78096274 / 100000000.
Proof.
  intros HM Hr. unfold pink_sample.
  pose proof (stage_bound (3190 / 10000) (fun j => rand (3 * j)%nat) M (S k) ltac:(lra) ltac:(intros; apply Hr)) as B0.
  pose proof (stage_bound (7756 / 10000) (fun j => rand (3 * j + 1)%nat) M (S k) ltac:(lra) ltac:(intros; apply Hr)) as B1.
  pose proof (stage_bound (9613 / 10000) (fun j => rand (3 * j + 2)%nat) M (S k) ltac:(lra) ltac:(intros; apply Hr)) as B2.
  revert B0 B1 B2. generalize (stage (3190 / 10000) (fun j => rand (3 * j)%nat) (S k)) as s0.
  generalize (stage (7756 / 10000) (fun j => rand (3 * j + 1)%nat) (S k)) as s1.
  generalize (stage (9613 / 10000) (fun j => rand (3 * j + 2)%nat) (S k)) as s2. intros s2 s1 s0 B0 B1 B2.
  set (w := 2109238 / 100000000 * s0 + 7113478 / 100000000 * s1 + 68873558 / 100000000 * s2).
  assert (W : 0 <= w <= 78096274 / 100000000 * M) by (unfold w; lra).
  assert (I : 0 < / M) by (apply Rinv_0_lt_compat, HM).
  assert (U : w * / M <= 78096274 / 100000000).
  { apply Rmult_le_reg_r with M; [exact HM|]. rewrite Rmult_assoc, Rinv_l by lra. lra. }
  assert (0 <= w * / M) by (apply Rmult_le_pos; lra). unfold Rdiv at 1 3. replace (2 * / M * w) with (2 * (w * / M)) by ring. lra.
Qed.
(** The first sample of a fresh generator is negative whatever is drawn. *)
Lemma pink_first M rand : 0 < M -> (forall j, 0 <= rand j <= M) -> pink_sample M rand 0 <= - (66 / 100).
Proof.
  intros HM Hr. unfold pink_sample. rewrite !stage_S, !stage_0.
  assert (D : forall j, 0 <= rand j * / M <= 1).
  { intros j. assert (0 < / M) by (apply Rinv_0_lt_compat, HM). specialize (Hr j). split; [apply Rmult_le_pos; lra|].
    apply Rmult_le_reg_r with M; [exact HM|]. rewrite Rmult_assoc, Rinv_l by lra. lra. }
  pose proof (D (3 * 0)%nat) as D0. pose proof (D (3 * 0 + 1)%nat) as D1. pose proof (D (3 * 0 + 2)%nat) as D2.
  set (r0 := rand (3 * 0)%nat) in *. set (r1 := rand (3 * 0 + 1)%nat) in *. set (r2 := rand (3 * 0 + 2)%nat) in *.
  replace (2 / M) with (2 * / M) by reflexivity. revert D0 D1 D2. generalize (/ M). intros q D0 D1 D2. nra.
Qed.

(** ** 1/f noise *)
Lemma insert_in x l t : In t (insert_sorted x l) <-> t = x \/ In t l.
Proof.
  induction l as [|y l IH]; cbn [insert_sorted]; [cbn; intuition auto|]. destruct (Nat.leb x y).
  - cbn. intuition auto.
  - cbn [In]. rewrite IH. intuition auto.
Qed.
Lemma sort_in l t : In t (sort_list l) <-> In t l.
Proof. induction l as [|x l IH]; [reflexivity|]. cbn [sort_list fold_right]. rewrite insert_in. fold (sort_list l). rewrite IH. cbn. intuition auto. Qed.
Lemma insert_sorted_ok x l : StronglySorted le l -> StronglySorted le (insert_sorted x l).
Proof.
  induction 1 as [|y l S IH F]; cbn [insert_sorted]; [repeat constructor|]. destruct (Nat.leb_spec x y) as [L|L].
  - constructor; [constructor; assumption|]. constructor; [exact L|]. rewrite Forall_forall in *. intros z Hz. specialize (F z Hz). lia.
  - constructor; [exact IH|]. rewrite Forall_forall in *. intros z Hz. apply insert_in in Hz. destruct Hz as [->|Hz]; [lia|exact (F z Hz)].
Qed.
Lemma sort_sorted l : StronglySorted le (sort_list l).
Proof. induction l as [|x l IH]; cbn; [constructor|]. apply insert_sorted_ok, IH. Qed.
Lemma unique_in l t : In t (unique_list l) <-> In t l.
Proof.
  induction l as [|a l IH]; [reflexivity|]. destruct l as [|b l]; [reflexivity|].
  change (unique_list (a :: b :: l)) with (if Nat.eqb a b then unique_list (b :: l) else a :: unique_list (b :: l)).
  destruct (Nat.eqb_spec a b) as [->|D].
  - rewrite IH. cbn. intuition auto.
  - split; (intros [->|H]; [left; reflexivity|right; apply IH, H]).
Qed.
Lemma unique_sorted l : StronglySorted le l -> StronglySorted lt (unique_list l).
Proof.
  induction l as [|a l IH]; intros S; [constructor|]. destruct l as [|b l]; [repeat constructor|].
  change (unique_list (a :: b :: l)) with (if Nat.eqb a b then unique_list (b :: l) else a :: unique_list (b :: l)).
  apply StronglySorted_inv in S. destruct S as [S F]. specialize (IH S). destruct (Nat.eqb_spec a b) as [->|D]; [exact IH|].
  constructor; [exact IH|]. apply Forall_forall. intros t Ht. apply (proj1 (unique_in _ _)) in Ht.
  apply StronglySorted_inv in S. destruct S as [S F2]. rewrite Forall_forall in F, F2. pose proof (F b (or_introl eq_refl)).
  destruct Ht as [<-|Ht]; [lia|]. specialize (F2 t Ht). lia.
Qed.
Lemma set_nth_length {A} i (a : A) l : length (set_nth i a l) = length l.
Proof. revert i. induction l as [|x l IH]; intros [|i]; cbn; auto. Qed.
Lemma set_nth_same {A} i (a : A) l : (i < length l)%nat -> nth_error (set_nth i a l) i = Some a.
Proof. revert i. induction l as [|x l IH]; intros [|i] H; cbn in *; try lia; [reflexivity|]. apply IH. lia. Qed.
Lemma set_nth_other {A} i j (a : A) l : i <> j -> nth_error (set_nth i a l) j = nth_error l j.
Proof. revert i j. induction l as [|x l IH]; intros [|i] [|j] H; cbn; auto; try congruence. Qed.
Definition valid (n : nat) (ts : list nat) : list nat := filter (fun t => Nat.ltb t n) ts.
Lemma valid_in n ts t : In t (valid n ts) <-> In t ts /\ (t < n)%nat.
Proof. unfold valid. rewrite filter_In. rewrite Nat.ltb_lt. reflexivity. Qed.
Lemma redraw_shape ts : forall o, length (o_state o) = o_sources o -> let o' := redraw ts o in let cells := valid (o_sources o) ts in
  o' = OF (o_sources o) (o_state o') (o_scale o) (o_unif o) (o_upos o + length cells) (o_geom o) (o_gpos o) /\
  revisited (fun i => o_unif o (o_upos o + i)%nat) cells (o_state o) (o_state o').
Proof.
  induction ts as [|t ts IH]; intros o Hl.
  - cbn. rewrite Nat.add_0_r. split; [destruct o; reflexivity|]. split; [reflexivity|]. split; [intros [|i] c H; discriminate|reflexivity].
  - cbn [redraw valid filter]. destruct (Nat.ltb_spec t (o_sources o)) as [L|L].
    + set (o1 := OF _ _ _ _ _ _ _).
      assert (Hl1 : length (o_state o1) = o_sources o1) by (unfold o1; cbn; rewrite set_nth_length; exact Hl).
      specialize (IH o1 Hl1). cbn zeta in IH. destruct IH as [E (L1 & R1 & K1)]. cbn [o1 o_sources o_scale o_unif o_upos o_geom o_gpos] in E.
      split.
      * cbn [length]. replace (o_upos o + S (length (filter (fun t0 => Nat.ltb t0 (o_sources o)) ts)))%nat
          with (S (o_upos o) + length (valid (o_sources o) ts))%nat by (unfold valid; lia). exact E.
      * fold (valid (o_sources o) ts). split; [rewrite L1; unfold o1; cbn; apply set_nth_length|]. split.
        -- intros [|i] c Hc Hlast.
           ++ cbn in Hc. injection Hc as <-. rewrite K1.
              ** unfold o1. cbn [o_state]. rewrite set_nth_same by lia. rewrite Nat.add_0_r. reflexivity.
              ** intros HI. apply In_nth_error in HI. destruct HI as [j Hj]. exact (Hlast (S j) ltac:(lia) Hj).
           ++ cbn in Hc. rewrite (R1 i c Hc).
              ** unfold o1. cbn [o_unif o_upos]. do 2 f_equal. lia.
              ** intros i' Hi' H. exact (Hlast (S i') ltac:(lia) H).
        -- intros c Hc. cbn [In] in Hc. rewrite K1 by (intros H; apply Hc; right; exact H). unfold o1. cbn [o_state]. apply set_nth_other. intros ->. apply Hc. left. reflexivity.
    + specialize (IH o Hl). exact IH.
Qed.
Lemma valid_sorted n ts : StronglySorted lt ts -> StronglySorted lt (valid n ts).
Proof.
  induction 1 as [|t ts S IH F]; [constructor|]. unfold valid. cbn [filter]. fold (valid n ts). destruct (Nat.ltb t n); [|exact IH]. constructor; [exact IH|].
  rewrite Forall_forall in *. intros x Hx. apply valid_in in Hx. exact (F x (proj1 Hx)).
Qed.
Lemma sorted_nodup l : StronglySorted lt l -> NoDup l.
Proof. induction 1 as [|x l S IH F]; constructor; [|exact IH]. rewrite Forall_forall in F. intros H. specialize (F x H). lia. Qed.
Lemma visited_once fresh cells s s' : NoDup cells -> (revisited fresh cells s s' <-> refreshed fresh cells s s').
Proof.
  intros N. split; intros (L & R & K); (split; [exact L|split; [|exact K]]).
  - intros i c Hc. apply (R i c Hc). intros i' Hi' H. rewrite NoDup_nth_error in N.
    pose proof (N i i') as X. rewrite Hc, H in X. pose proof (proj1 (nth_error_Some cells i) ltac:(congruence)). specialize (X ltac:(assumption) eq_refl). lia.
  - intros i c Hc _. exact (R i c Hc).
Qed.
Lemma fold_total xs : forall a, fold_left Rplus xs a = a + total xs.
Proof. induction xs as [|x xs IH]; intros a; cbn; [ring|]. rewrite IH. unfold total. ring. Qed.
Lemma refreshed_det fresh cells s s1 s2 : refreshed fresh cells s s1 -> refreshed fresh cells s s2 -> s1 = s2.
Proof.
  intros (L1 & R1 & K1) (L2 & R2 & K2). assert (E : forall c, nth_error s1 c = nth_error s2 c).
  { intros c. destruct (in_dec Nat.eq_dec c cells) as [I|I].
    - apply In_nth_error in I. destruct I as [i I]. rewrite (R1 i c I), (R2 i c I). reflexivity.
    - rewrite K1, K2 by exact I. reflexivity. }
  clear -E. revert s2 E. induction s1 as [|a s1 IH]; intros [|b s2] E; [reflexivity|discriminate (E 0%nat)|discriminate (E 0%nat)|].
  pose proof (E 0%nat) as E0. cbn in E0. injection E0 as ->. f_equal. apply IH. intros c. exact (E (S c)).
Qed.
Lemma picked_det n ts a b : picked n ts a -> picked n ts b -> a = b.
Proof.
  intros [Sa Ia] [Sb Ib]. assert (E : forall t, In t a <-> In t b) by (intros t; rewrite Ia, Ib; reflexivity). clear Ia Ib.
  revert b Sb E. induction Sa as [|x a Sa IH Fa]; intros b Sb E.
  - destruct b as [|y b]; [reflexivity|]. exfalso. exact (proj2 (E y) (or_introl eq_refl)).
  - destruct Sb as [|y b Sb Fb]; [exfalso; exact (proj1 (E x) (or_introl eq_refl))|]. rewrite Forall_forall in Fa, Fb.
    assert (x = y).
    { destruct (proj1 (E x) (or_introl eq_refl)) as [->|X]; [reflexivity|]. destruct (proj2 (E y) (or_introl eq_refl)) as [->|Y]; [reflexivity|].
      specialize (Fa y Y). specialize (Fb x X). lia. }
    subst y. f_equal. apply IH; [exact Sb|]. intros t. specialize (E t). cbn in E. split; intros Ht.
    + destruct (proj1 E (or_intror Ht)) as [<-|]; [specialize (Fa x Ht); lia|assumption].
    + destruct (proj2 E (or_intror Ht)) as [<-|]; [specialize (Fb x Ht); lia|assumption].
Qed.
Lemma onef_tick_iff o o' x : length (o_state o) = o_sources o -> (onef_tick o = (o', Ok x) <->
  exists cells, picked (o_sources o) (trials_of o) cells /\ onef_moved o o' cells /\
    refreshed (fun i => o_unif o (o_upos o + i)%nat) cells (o_state o) (o_state o') /\ x = o_scale o * total (o_state o')).
Proof.
  intros Hl.
  assert (A : exists o1 y cells, onef_tick o = (o1, Ok y) /\ picked (o_sources o) (trials_of o) cells /\ onef_moved o o1 cells /\
    refreshed (fun i => o_unif o (o_upos o + i)%nat) cells (o_state o) (o_state o1) /\ y = o_scale o * total (o_state o1)).
  { unfold onef_tick, draw_trials. set (o1 := OF _ _ _ _ _ _ _). set (ts := unique_list _).
    assert (St : StronglySorted lt ts) by (apply unique_sorted, sort_sorted).
    pose proof (redraw_shape ts o1 Hl) as [E V]. exists (redraw ts o1), (onef_out (redraw ts o1)), (valid (o_sources o) ts).
    split; [reflexivity|]. split.
    { split; [apply valid_sorted, St|]. intros t. rewrite valid_in. unfold ts. rewrite unique_in, sort_in. reflexivity. }
    split; [exact E|]. split.
    { apply visited_once; [apply sorted_nodup, valid_sorted, St|]. exact V. }
    unfold onef_out. rewrite fold_total, Rplus_0_l. f_equal. rewrite E. reflexivity. }
  destruct A as (o1 & y & cells & E & P & M & F & Y). rewrite E. split.
  - intros X. injection X as <- <-. exists cells. auto.
  - intros (cells' & P' & M' & F' & ->). pose proof (picked_det _ _ _ _ P P'). subst cells'.
    pose proof (refreshed_det _ _ _ _ _ F F') as S. assert (o1 = o') as <- by (rewrite M, M', S; reflexivity). rewrite Y. reflexivity.
Qed.
Lemma onef_tick2_sound o o' x : length (o_state o) = o_sources o -> onef_tick2 o = (o', Ok x) ->
  let cells := filter (fun t => Nat.ltb t (o_sources o)) (trials_of o) in
  onef_moved o o' cells /\ revisited (fun i => o_unif o (o_upos o + i)%nat) cells (o_state o) (o_state o') /\ x = o_scale o * total (o_state o').
Proof.
  intros Hl E. unfold onef_tick2, draw_trials in E. set (o1 := OF _ _ _ _ _ _ _) in E. injection E as <- <-.
  pose proof (redraw_shape (trials_of o) o1 Hl) as [E V]. cbn zeta. split; [exact E|]. split; [exact V|].
  unfold onef_out. rewrite fold_total, Rplus_0_l. f_equal. exact (f_equal o_scale E).
Qed.
Lemma onef_total o : exists o1 x1 o2 x2, onef_tick o = (o1, Ok x1) /\ onef_tick2 o = (o2, Ok x2).
Proof. do 4 eexists. split; reflexivity. Qed.
Lemma mkOneF_iff n scale u g o : mkOneF n scale u g = Ok o <->
  (0 <= n)%Z /\ o = OF (Z.to_nat n) (map u (seq 0 (Z.to_nat n))) scale u (Z.to_nat n) g 0.
Proof.
  unfold mkOneF. destruct (Z.ltb_spec n 0) as [L|L]; [split; [discriminate|intros [H _]; lia]|].
  split; [intros E; injection E as <-; auto|intros [_ ->]; reflexivity].
Qed.
Lemma mkOneF_unit n scale u g o : (forall i, 0 <= u i <= 1) -> mkOneF n scale u g = Ok o -> in_unit o.
Proof.
  intros Hu E. apply mkOneF_iff in E. destruct E as [_ ->]. split; [cbn; rewrite map_length, seq_length; reflexivity|]. split; [|exact Hu].
  intros x Hx. cbn in Hx. apply in_map_iff in Hx. destruct Hx as (i & <- & _). apply Hu.
Qed.
Lemma revisited_bound fresh cells s s' : (forall i, 0 <= fresh i <= 1) -> (forall x, In x s -> 0 <= x <= 1) -> revisited fresh cells s s' ->
  forall x, In x s' -> 0 <= x <= 1.
Proof.
  intros Hf Hs (L & R & K) x Hx. apply In_nth_error in Hx. destruct Hx as [c Hc]. destruct (in_dec Nat.eq_dec c cells) as [I|I].
  - assert (Q : exists i, nth_error cells i = Some c /\ forall i', (i < i')%nat -> nth_error cells i' <> Some c).
    { clear -I. induction cells as [|a cells IH]; [destruct I|]. destruct (in_dec Nat.eq_dec c cells) as [J|J].
      - destruct (IH J) as (i & H1 & H2). exists (S i). split; [exact H1|]. intros [|i'] Hi'; [lia|]. apply H2. lia.
      - destruct I as [->|I]; [|contradiction]. exists 0%nat. split; [reflexivity|]. intros [|i'] Hi' H; [lia|]. cbn in H. apply J. exact (nth_error_In _ _ H). }
    destruct Q as (i & Q1 & Q2). rewrite (R i c Q1 Q2) in Hc. injection Hc as <-. apply Hf.
  - rewrite K in Hc by exact I. apply Hs. exact (nth_error_In _ _ Hc).
Qed.
Lemma total_bound s : (forall x, In x s -> 0 <= x <= 1) -> 0 <= total s <= INR (length s).
Proof.
  induction s as [|x s IH]; intros H; [cbn; lra|]. cbn [length]. rewrite S_INR. unfold total in *. cbn [fold_right].
  pose proof (H x (or_introl eq_refl)). pose proof (IH ltac:(intros; apply H; right; assumption)). lra.
Qed.
Lemma onef_keeps (tick : ST onef R) o o' x : tick = onef_tick \/ tick = onef_tick2 -> in_unit o -> tick o = (o', Ok x) ->
  in_unit o' /\ o_scale o' = o_scale o /\ o_sources o' = o_sources o /\ (0 <= o_scale o -> 0 <= x <= INR (o_sources o) * o_scale o).
Proof.
  intros T (L & B & U) E.
  assert (A : exists cells, onef_moved o o' cells /\ revisited (fun i => o_unif o (o_upos o + i)%nat) cells (o_state o) (o_state o') /\ x = o_scale o * total (o_state o')).
  { destruct T as [-> | ->].
    - apply (onef_tick_iff o o' x L) in E. destruct E as (cells & P & M & F & X). exists cells. split; [exact M|]. split; [|exact X].
      apply visited_once; [apply sorted_nodup, (proj1 P)|exact F].
    - apply (onef_tick2_sound o o' x L) in E. eexists. exact E. }
  destruct A as (cells & M & V & ->).
  pose proof (revisited_bound _ _ _ _ ltac:(intros; apply U) B V) as B'. pose proof (total_bound _ B') as T'.
  destruct V as [L' _]. rewrite L', L in T'.
  split; [split; [rewrite M; cbn [o_sources o_state]; rewrite L'; exact L|split; [exact B'|rewrite M; exact U]]|].
  split; [rewrite M; reflexivity|]. split; [rewrite M; reflexivity|]. intros S. nra.
Qed.
(** Any sequence of the two kinds of ticks. *)
Inductive onef_reach : onef -> list R -> onef -> Prop :=
| onef_stop o : onef_reach o [] o
| onef_go (tick : ST onef R) o o1 x xs o' : tick = onef_tick \/ tick = onef_tick2 -> tick o = (o1, Ok x) -> onef_reach o1 xs o' ->
    onef_reach o (x :: xs) o'.
Lemma onef_run_bound o xs o' : in_unit o -> 0 <= o_scale o -> onef_reach o xs o' -> forall x, In x xs -> 0 <= x <= INR (o_sources o) * o_scale o.
Proof.
  intros I S. induction 1 as [|tick o o1 y xs o' T E Rch IH]; intros x Hx; [destruct Hx|].
  destruct (onef_keeps tick o o1 y T I E) as (I1 & S1 & N1 & B). destruct Hx as [<-|Hx]; [exact (B S)|].
  rewrite <- S1, <- N1. apply IH; [exact I1|rewrite S1; exact S|exact Hx].
Qed.
