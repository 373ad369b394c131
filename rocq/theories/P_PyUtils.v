(** Proofs about the search helpers. *)
From Verif Require Export P_Geom S_PyUtils.
From Coq Require Import Psatz.
Open Scope R_scope.
Open Scope st_scope.

(** ** Roots *)
Lemma near_iff x d rs : existsb (fun r => if Rlt_dec (Rabs (r - x)) d then true else false) rs = true <-> exists r, In r rs /\ Rabs (r - x) < d.
Proof.
  rewrite existsb_exists. split; intros (r & A & B); exists r; (split; [exact A|]); destruct (Rlt_dec (Rabs (r - x)) d); auto; discriminate.
Qed.
Lemma loop_searched fr : forall gs c s, exists rs', find_loop fr c gs s = set_rf_roots rs' s /\ searched fr (rf_start s) (rf_stop s) (rf_xtol s) c gs (rf_roots s) rs'.
Proof.
  induction gs as [|x0 gs IH]; intros c s; cbn [find_loop]; [exists (rf_roots s); split; [destruct s; reflexivity|constructor]|].
  destruct (Rlt_dec x0 c) as [H|H]; [destruct (IH c s) as (rs' & E & S); exists rs'; split; [exact E|apply se_behind; assumption]|].
  destruct (fr x0) as [x|] eqn:F; [|destruct (IH c s) as (rs' & E & S); exists rs'; split; [exact E|apply se_fail; [lra|exact F|exact S]]].
  unfold add_to_roots. destruct (Rlt_dec x (rf_start s)) as [A|A]; [destruct (IH x s) as (rs' & E & S); exists rs'; split; [exact E|apply se_outside with x; [lra|exact F|unfold within; lra|exact S]]|].
  destruct (Rlt_dec (rf_stop s) x) as [B|B]; [destruct (IH x s) as (rs' & E & S); exists rs'; split; [exact E|apply se_outside with x; [lra|exact F|unfold within; lra|exact S]]|].
  destruct (existsb _ (rf_roots s)) eqn:N.
  - apply near_iff in N. destruct N as (r & N1 & N2). destruct (IH x s) as (rs' & E & S). exists rs'. split; [exact E|]. apply se_known with x r; [lra|exact F|exact N1|exact N2|exact S].
  - destruct (IH x (set_rf_roots (rf_roots s ++ [x]) s)) as (rs' & E & S). exists rs'. split; [rewrite E; reflexivity|]. cbn in S. apply se_new with x; [lra|exact F|unfold within; lra| |exact S].
    intros r Hr. destruct (Rlt_dec (Rabs (r - x)) (rf_xtol s)) as [X|X]; [|lra]. exfalso. assert (existsb (fun r => if Rlt_dec (Rabs (r - x)) (rf_xtol s) then true else false) (rf_roots s) = true) by (apply near_iff; exists r; auto). congruence.
Qed.
Lemma searched_det fr a b d : forall gs c rs r1 r2, searched fr a b d c gs rs r1 -> searched fr a b d c gs rs r2 -> r1 = r2.
Proof.
  induction gs as [|x0 gs IH]; intros c rs r1 r2 A B; inversion A; subst; inversion B; subst; try reflexivity; try lra; try congruence;
  repeat match goal with H : fr ?x = Some ?u, K : fr ?x = Some ?v |- _ => rewrite H in K; injection K as K; subst end; try contradiction; eauto;
  match goal with H : forall r, In r ?rs -> _, K : In ?r ?rs |- _ => specialize (H _ K); lra | _ => idtac end; unfold within in *; try lra.
Qed.
Lemma find_iff fr s s' rs : find fr s = (s', Ok rs) <->
  rf_step s <> 0 /\ s' = set_rf_roots rs s /\ exists gs, (0 <= ztrunc ((rf_stop s - rf_start s) / rf_step s))%Z /\
    evenly (rf_start s) (rf_stop s + rf_step s) (Z.to_nat (ztrunc ((rf_stop s - rf_start s) / rf_step s))) gs /\
    searched fr (rf_start s) (rf_stop s) (rf_xtol s) (rf_start s) gs (rf_roots s) rs.
Proof.
  unfold find, bind, get. cbn. destruct (Req_EM_T (rf_step s) 0) as [Z|Z]; [split; [discriminate|intros (X & _); contradiction]|]. unfold lift. split.
  - destruct (linspace _ _ _) as [gs|e] eqn:E; [|discriminate]. apply linspace_iff in E. destruct E as [E1 E2]. cbn. destruct (loop_searched fr gs (rf_start s) s) as (rs' & F & S). rewrite F. cbn. intros X. injection X as <- <-. split; [exact Z|]. split; [reflexivity|]. exists gs. auto.
  - intros (_ & -> & gs & E1 & E2 & S). rewrite (proj2 (linspace_iff _ _ _ gs)) by auto. cbn. destruct (loop_searched fr gs (rf_start s) s) as (rs' & F & S'). rewrite F. rewrite (searched_det _ _ _ _ _ _ _ _ _ S' S). reflexivity.
Qed.
Lemma searched_within fr a b d : forall c gs rs rs', searched fr a b d c gs rs rs' -> Forall (within a b) rs -> Forall (within a b) rs'.
Proof. induction 1; auto. intros F. apply IHsearched. apply Forall_app. split; [exact F|]. constructor; [assumption|constructor]. Qed.
Lemma apart_snoc d : forall xs x, apart d xs -> (forall r, In r xs -> d <= Rabs (r - x)) -> apart d (xs ++ [x])%list.
Proof.
  unfold apart. induction xs as [|y xs IH]; intros x A H; cbn; [constructor; constructor|]. inversion A; subst. constructor.
  - apply Forall_app. split; [assumption|]. constructor; [apply H; left; reflexivity|constructor].
  - apply IH; [assumption|]. intros r Hr. apply H. right. exact Hr.
Qed.
Lemma searched_apart fr a b d : forall c gs rs rs', searched fr a b d c gs rs rs' -> apart d rs -> apart d rs'.
Proof. induction 1; auto. intros F. apply IHsearched. apply apart_snoc; assumption. Qed.
Lemma searched_grows fr a b d : forall c gs rs rs', searched fr a b d c gs rs rs' ->
  exists new, rs' = (rs ++ new)%list /\ forall x, In x new -> within a b x /\ exists x0, In x0 gs /\ fr x0 = Some x.
Proof.
  intros c gs rs rs' H. induction H as [c rs|c x0 gs rs rs' H S IH|c x0 gs rs rs' H F S IH|c x0 x gs rs rs' H F N S IH|c x0 x r gs rs rs' H F I N S IH|c x0 x gs rs rs' H F W N S IH];
  [exists []; rewrite app_nil_r; split; [reflexivity|intros x []]| | | | |];
  destruct IH as (new & E & G); try (exists new; split; [exact E|]; intros y Hy; destruct (G y Hy) as (A & z & B1 & B2); split; [exact A|]; exists z; split; [right; exact B1|exact B2]).
  exists (x :: new). split; [rewrite E, <- app_assoc; reflexivity|]. intros y [<-|Hy]; [split; [exact W|]; exists x0; split; [left; reflexivity|exact F]|].
  destruct (G y Hy) as (A & z & B1 & B2). split; [exact A|]. exists z. split; [right; exact B1|exact B2].
Qed.
Lemma searched_covers fr a b d : forall c gs rs rs', searched fr a b d c gs rs rs' -> forall pre x0 post, gs = (pre ++ x0 :: post)%list ->
  x0 < c \/ (exists x1 x, In x1 pre /\ fr x1 = Some x /\ x0 < x) \/ fr x0 = None \/
  (exists x, fr x0 = Some x /\ (~ within a b x \/ exists r, In r rs' /\ (r = x \/ Rabs (r - x) < d))).
Proof.
  intros c gs rs rs' H. induction H as [c rs|c y gs rs rs' H S IH|c y gs rs rs' H F S IH|c y x gs rs rs' H F N S IH|c y x r gs rs rs' H F I N S IH|c y x gs rs rs' H F W N S IH]; intros pre x0 post E;
  (destruct pre as [|z pre]; [try discriminate|try discriminate]); injection E as <- E; pose proof (searched_grows _ _ _ _ _ _ _ _ S) as (new & EN & _) || idtac.
  - left. exact H.
  - destruct (IH pre x0 post E) as [A|[(x1 & x & A & B)|A]]; [left; exact A|right; left; exists x1, x; split; [right; exact A|exact B]|right; right; exact A].
  - right. right. left. exact F.
  - destruct (IH pre x0 post E) as [A|[(x1 & x & A & B)|A]]; [left; exact A|right; left; exists x1, x; split; [right; exact A|exact B]|right; right; exact A].
  - right. right. right. exists x. split; [exact F|]. left. exact N.
  - destruct (IH pre x0 post E) as [A|[(x1 & u & A & B)|A]]; [right; left; exists y, x; split; [left; reflexivity|split; assumption]|right; left; exists x1, u; split; [right; exact A|exact B]|right; right; exact A].
  - right. right. right. exists x. split; [exact F|]. right. exists r. split; [rewrite EN; apply in_or_app; left; exact I|right; exact N].
  - destruct (IH pre x0 post E) as [A|[(x1 & u & A & B)|A]]; [right; left; exists y, x; split; [left; reflexivity|split; assumption]|right; left; exists x1, u; split; [right; exact A|exact B]|right; right; exact A].
  - right. right. right. exists x. split; [exact F|]. right. exists x. split; [rewrite EN; apply in_or_app; left; apply in_or_app; right; left; reflexivity|left; reflexivity].
  - destruct (IH pre x0 post E) as [A|[(x1 & u & A & B)|A]]; [right; left; exists y, x; split; [left; reflexivity|split; assumption]|right; left; exists x1, u; split; [right; exact A|exact B]|right; right; exact A].
Qed.

(** ** Parameter grids *)
Lemma NoDup_app_ {A} : forall xs ys : list A, NoDup xs -> NoDup ys -> (forall x, In x xs -> In x ys -> False) -> NoDup (xs ++ ys).
Proof. induction xs as [|x xs IH]; intros ys N M D; [exact M|]. inversion N; subst. cbn. constructor; [intros K; apply in_app_or in K; destruct K as [K|K]; [contradiction|apply (D x); [left; reflexivity|exact K]]|]. apply IH; [assumption|exact M|intros z Z1 Z2; apply (D z); [right; exact Z1|exact Z2]]. Qed.
Lemma argwhere_iff v : forall s i, argwhere_first v s = Ok i <-> nth_error s i = Some v /\ forall j, nth_error s j = Some v -> (i <= j)%nat.
Proof.
  induction s as [|x s IH]; intros i; cbn [argwhere_first]; [split; [discriminate|intros [H _]; destruct i; discriminate]|]. destruct (Req_EM_T x v) as [->|D]; unfold rbind.
  - split; [intros E; injection E as <-; split; [reflexivity|intros; lia]|]. intros [A B]. specialize (B 0%nat eq_refl). replace i with 0%nat by lia. reflexivity.
  - split.
    + destruct (argwhere_first v s) as [k|] eqn:E; [|discriminate]. intros X. injection X as <-. destruct (proj1 (IH k) eq_refl) as [A B]. split; [exact A|]. intros [|j] H; cbn in H; [congruence|]. apply B in H. lia.
    + intros [A B]. destruct i as [|i]; cbn in A; [congruence|]. rewrite (proj2 (IH i)); [reflexivity|]. split; [exact A|]. intros j H. specialize (B (S j) H). lia.
Qed.
Lemma index_iff : forall ss vs ix, length vs = length ss -> get_index ss vs = Ok ix <-> first_pick ss ix vs.
Proof.
  unfold first_pick. induction ss as [|s ss IH]; intros vs ix L; destruct vs as [|v vs]; try discriminate; cbn [get_index].
  - split; [intros E; injection E as <-; split; [constructor|intros jx H; inversion H; constructor]|]. intros [H _]. inversion H. reflexivity.
  - unfold rbind. cbn in L. injection L as L. split.
    + destruct (argwhere_first v s) as [i|] eqn:E; [|discriminate]. destruct (get_index ss vs) as [is|] eqn:F; [|discriminate]. intros X. injection X as <-. apply argwhere_iff in E. apply IH in F; [|exact L]. destruct E as [E1 E2], F as [F1 F2].
      split; [constructor; assumption|]. intros jx H. inversion H; subst. constructor; [apply E2; assumption|apply F2; assumption].
    + intros [H M]. inversion H; subst.
      assert (HI : argwhere_first v s = Ok i). { apply argwhere_iff. split; [assumption|]. intros j Hj. specialize (M (j :: is) ltac:(constructor; assumption)). inversion M; subst. assumption. }
      assert (HS : get_index ss vs = Ok is). { apply IH; [exact L|]. split; [assumption|]. intros jx Hj. specialize (M (i :: jx) ltac:(constructor; assumption)). inversion M; subst. assumption. }
      rewrite HI, HS. reflexivity.
Qed.
Lemma product_iff : forall ss vs, In vs (product ss) <-> exists ix, picks ss ix vs.
Proof.
  induction ss as [|s ss IH]; intros vs; cbn [product].
  - split; [intros [<-|[]]; exists []; constructor|]. intros [ix H]. inversion H. left. reflexivity.
  - rewrite in_flat_map. split.
    + intros (x & Hx & H). apply in_map_iff in H. destruct H as (t & <- & Ht). apply IH in Ht. destruct Ht as [ix Ht]. apply In_nth_error in Hx. destruct Hx as [i Hi]. exists (i :: ix). constructor; assumption.
    + intros [ix H]. inversion H; subst. exists v. split; [eapply nth_error_In; eassumption|]. apply in_map. apply IH. eexists. eassumption.
Qed.
Lemma picks_length : forall ss ix vs, picks ss ix vs -> length vs = length ss /\ length ix = length ss.
Proof. induction 1; cbn; [auto|]. destruct IHpicks. split; congruence. Qed.
Lemma first_total : forall ss vs, (exists ix, picks ss ix vs) -> exists ix, get_index ss vs = Ok ix.
Proof.
  intros ss vs [ix H]. induction H as [|s ss i is v vs E H [js IH]]; [exists []; reflexivity|]. cbn [get_index]. 
  assert (A : exists k, argwhere_first v s = Ok k). { clear -E. revert i E. induction s as [|x s IH]; intros i E; [destruct i; discriminate|]. cbn [argwhere_first]. destruct (Req_EM_T x v); [eexists; reflexivity|]. destruct i as [|i]; cbn in E; [congruence|]. destruct (IH i E) as [k ->]. eexists. reflexivity. }
  destruct A as [k ->]. cbn. rewrite IH. eexists. reflexivity.
Qed.
Lemma rmap_iff {A B} (f : A -> result B) : forall xs ys, rmap f xs = Ok ys <-> Forall2 (fun x y => f x = Ok y) xs ys.
Proof.
  induction xs as [|x xs IH]; intros ys; cbn [rmap].
  - split; [intros E; injection E as <-; constructor|]. intros H. inversion H. reflexivity.
  - unfold rbind. split.
    + destruct (f x) as [y|] eqn:E; [|discriminate]. destruct (rmap f xs) as [zs|] eqn:F; [|discriminate]. intros X. injection X as <-. constructor; [exact E|]. apply IH. reflexivity.
    + intros H. inversion H; subst. match goal with K : f x = Ok _ |- _ => rewrite K end. match goal with K : Forall2 _ xs _ |- _ => apply IH in K; rewrite K end. reflexivity.
Qed.
Lemma values_eq_iff : forall a b, values_eq a b = true <-> a = b.
Proof.
  induction a as [|x a IH]; intros [|y b]; cbn [values_eq]; try (split; congruence). destruct (Req_EM_T x y) as [->|D]; [rewrite IH; split; congruence|]. split; [discriminate|congruence].
Qed.
Lemma list_index_ok : forall xs v, In v xs -> exists p, list_index v xs = Ok p /\ nth_error xs p = Some v.
Proof.
  induction xs as [|x xs IH]; intros v []; cbn [list_index]; unfold rbind.
  - subst x. rewrite (proj2 (values_eq_iff v v) eq_refl). exists 0%nat. split; reflexivity.
  - destruct (values_eq x v) eqn:E; [apply values_eq_iff in E; subst; exists 0%nat; split; reflexivity|]. destruct (IH v H) as (p & -> & Hp). exists (S p). split; [reflexivity|exact Hp].
Qed.
Lemma Forall2_nth_ {A B} (P : A -> B -> Prop) : forall xs ys, Forall2 P xs ys -> forall i x, nth_error xs i = Some x -> exists y, nth_error ys i = Some y /\ P x y.
Proof. induction 1; intros [|i] a E; cbn in *; try discriminate; [injection E as <-; eauto|eauto]. Qed.
Lemma perm_bound n o : Permutation o (seq 0 n) -> forall i, In i o -> (i < n)%nat.
Proof. intros P i Hi. apply (Permutation_in _ P) in Hi. apply in_seq in Hi. lia. Qed.
Lemma map_nth_seq {A} (xs : list A) d : map (fun i => nth i xs d) (seq 0 (length xs)) = xs.
Proof. induction xs as [|x xs IH]; [reflexivity|]. cbn [length seq map nth]. f_equal. rewrite <- seq_shift, map_map. exact IH. Qed.
Definition reorder {A} (d : A) (o : option (list nat)) (xs : list A) : list A := match o with None => xs | Some o => map (fun i => nth i xs d) o end.
Lemma reorder_perm {A} (d : A) o xs : is_shuffle (length xs) o -> Permutation (reorder d o xs) xs.
Proof. destruct o as [l|]; cbn; [|auto]. intros P. apply Permutation_trans with (map (fun i => nth i xs d) (seq 0 (length xs))); [apply Permutation_map; exact P|rewrite map_nth_seq; apply Permutation_refl]. Qed.
Lemma reorder_Forall2 {A B} (P : A -> B -> Prop) da db o xs ys : Forall2 P xs ys -> is_shuffle (length xs) o -> Forall2 P (reorder da o xs) (reorder db o ys).
Proof.
  destruct o as [l|]; cbn; [|auto]. intros F S. assert (HB : forall i, In i l -> (i < length xs)%nat) by (apply perm_bound; exact S). clear S. induction l as [|i l IH]; cbn; constructor; [|apply IH; intros; apply HB; right; assumption].
  specialize (HB i (or_introl eq_refl)). destruct (Forall2_nth_ P xs ys F i (nth i xs da)) as (y & Hy & HP); [apply nth_error_nth'; exact HB|]. rewrite (nth_error_nth _ _ db Hy). exact HP.
Qed.
(** The result of a distribution, whatever the two orders. *)
Lemma distribute_perm {A} (f : list R -> A) ss o done outs : is_shuffle (length (product ss)) o -> Permutation done (seq 0 (length (product ss))) ->
  distribute f ss o done = Ok outs -> exists ixs, Forall2 (fun vs ix => first_pick ss ix vs) (product ss) ixs /\ Permutation outs (combine ixs (map f (product ss))).
Proof.
  intros HO HD. unfold distribute. unfold rbind at 1. destruct (rmap (get_index ss) (product ss)) as [ixs|] eqn:EI; [|discriminate]. apply rmap_iff in EI. cbv zeta.
  change (match o with Some o0 => map (fun i => nth i (product ss) []) o0 | None => product ss end) with (reorder [] o (product ss)).
  change (match o with Some o0 => map (fun i => nth i ixs []) o0 | None => ixs end) with (reorder [] o ixs).
  set (its := reorder [] o (product ss)). set (ids := reorder [] o ixs). assert (F : Forall2 (fun vs ix => get_index ss vs = Ok ix) its ids) by (apply reorder_Forall2; assumption).
  assert (PI : Permutation its (product ss)) by (apply reorder_perm; exact HO). intros H. apply rmap_iff in H.
  assert (LN : length its = length (product ss)) by (apply Permutation_length; exact PI).
  exists ixs. split.
  - clear -EI. assert (L : forall vs, In vs (product ss) -> length vs = length ss) by (intros vs Hv; apply product_iff in Hv; destruct Hv as [ix Hv]; apply (picks_length _ _ _ Hv)). induction EI; constructor; [apply index_iff; [apply L; left; reflexivity|assumption]|apply IHEI; intros; apply L; right; assumption].
  - set (g := fun vs => match get_index ss vs with Ok ix => (ix, f vs) | Err _ => ([], f vs) end).
    assert (E1 : outs = map (fun c => g (nth c its [])) done).
    { assert (HB : forall i, In i done -> (i < length its)%nat) by (rewrite LN; apply perm_bound; exact HD). clear HD. induction H as [|c ix done outs Hc H IH]; [reflexivity|]. cbn [map]. f_equal; [|apply IH; intros; apply HB; right; assumption].
      assert (IN : In (nth c its []) its) by (apply nth_In, HB; left; reflexivity). destruct (list_index_ok its _ IN) as (p & EP & HP). rewrite EP in Hc. cbn [rbind] in Hc.
      destruct (Forall2_nth_ _ _ _ F p _ HP) as (y & Hy & GY). rewrite Hy in Hc. injection Hc as <-. unfold g. rewrite GY. reflexivity. }
    assert (E2 : combine ixs (map f (product ss)) = map g (product ss)).
    { clear -EI. induction EI as [|vs ix a b E EI IH]; [reflexivity|]. cbn [map combine]. rewrite IH. f_equal. unfold g. rewrite E. reflexivity. }
    rewrite E1, E2. rewrite <- (map_map (fun c => nth c its []) g). apply Permutation_map. transitivity its; [|exact PI]. apply Permutation_trans with (map (fun i => nth i its []) (seq 0 (length its))); [rewrite LN; apply Permutation_map; exact HD|rewrite map_nth_seq; apply Permutation_refl].
Qed.
Lemma distribute_total {A} (f : list R -> A) ss o done : is_shuffle (length (product ss)) o -> Permutation done (seq 0 (length (product ss))) ->
  exists outs, distribute f ss o done = Ok outs.
Proof.
  intros HO HD. unfold distribute. assert (EI : exists ixs, rmap (get_index ss) (product ss) = Ok ixs).
  { assert (T : forall vs, In vs (product ss) -> exists ix, get_index ss vs = Ok ix) by (intros vs Hv; apply first_total, product_iff; exact Hv). clear -T. induction (product ss) as [|v l IH]; [exists []; reflexivity|]. destruct (T v (or_introl eq_refl)) as [ix E]. destruct IH as [ixs E']; [intros; apply T; right; assumption|]. exists (ix :: ixs). cbn. rewrite E. cbn. rewrite E'. reflexivity. }
  destruct EI as [ixs EI]. rewrite EI. cbn [rbind]. apply rmap_iff in EI.
  change (match o with Some o0 => map (fun i => nth i (product ss) []) o0 | None => product ss end) with (reorder [] o (product ss)).
  change (match o with Some o0 => map (fun i => nth i ixs []) o0 | None => ixs end) with (reorder [] o ixs).
  set (its := reorder [] o (product ss)). set (ids := reorder [] o ixs). assert (F : Forall2 (fun vs ix => get_index ss vs = Ok ix) its ids) by (apply reorder_Forall2; assumption).
  assert (LN : length its = length (product ss)) by (apply Permutation_length, reorder_perm; exact HO).
  assert (HB : forall i, In i done -> (i < length its)%nat) by (rewrite LN; apply perm_bound; exact HD). clear HD. induction done as [|c done IH]; [exists []; reflexivity|].
  destruct IH as [outs E]; [intros; apply HB; right; assumption|]. cbn [rmap]. rewrite E.
  assert (IN : In (nth c its []) its) by (apply nth_In, HB; left; reflexivity). destruct (list_index_ok its _ IN) as (p & EP & HP). rewrite EP. cbn [rbind].
  destruct (Forall2_nth_ _ _ _ F p _ HP) as (y & Hy & GY). rewrite Hy. cbn. eexists. reflexivity.
Qed.
(** With distinct values in each space, positions and values correspond one to one. *)
Lemma picks_det : forall ss ix vs ws, picks ss ix vs -> picks ss ix ws -> vs = ws.
Proof. intros ss ix vs ws H. revert ws. induction H; intros ws K; inversion K; subst; [reflexivity|]. f_equal; [congruence|apply IHpicks; assumption]. Qed.
Lemma picks_inj : forall ss ix jx vs, Forall (@NoDup R) ss -> picks ss ix vs -> picks ss jx vs -> ix = jx.
Proof.
  intros ss ix jx vs N H. revert jx. induction H; intros jx K; inversion K; subst; [reflexivity|]. inversion N; subst. f_equal; [|apply IHpicks; assumption].
  match goal with A : nth_error ?s ?a = Some ?v, B : nth_error ?s ?b = Some ?v |- ?a = ?b => apply (proj1 (NoDup_nth_error s) ltac:(assumption)); [apply nth_error_Some; congruence|congruence] end.
Qed.

Lemma first_pick_distinct ss ix vs : Forall (@NoDup R) ss -> first_pick ss ix vs <-> picks ss ix vs.
Proof.
  intros N. unfold first_pick. split; [intros [H _]; exact H|]. intros H. split; [exact H|]. intros jx K. rewrite <- (picks_inj _ _ _ _ N H K). clear. induction ix; constructor; auto.
Qed.
Lemma product_NoDup : forall ss, Forall (@NoDup R) ss -> NoDup (product ss).
Proof.
  induction ss as [|s ss IH]; intros N; [constructor; [intros []|constructor]|]. inversion N as [|? ? NS NSS]; subst. specialize (IH NSS). cbn [product]. clear N NSS. induction s as [|x s IHs]; [constructor|]. inversion NS; subst. cbn [flat_map].
  apply NoDup_app_; [|apply IHs; assumption|].
  - clear -IH. induction (product ss) as [|v l IHl]; [constructor|]. inversion IH; subst. cbn. constructor; [|apply IHl; assumption]. intros K. apply in_map_iff in K. destruct K as (w & E & K). injection E as ->. contradiction.
  - intros v K1 K2. apply in_map_iff in K1. destruct K1 as (w & <- & _). apply in_flat_map in K2. destruct K2 as (y & Hy & K2). apply in_map_iff in K2. destruct K2 as (u & E & _). injection E as -> _. contradiction.
Qed.
Lemma combine_map {A B C} (f : A -> C) : forall (xs : list A) (ys : list B), length ys = length xs -> map fst (combine ys (map f xs)) = ys /\ forall y c, In (y, c) (combine ys (map f xs)) <-> exists i x, nth_error xs i = Some x /\ nth_error ys i = Some y /\ c = f x.
Proof.
  induction xs as [|x xs IH]; intros [|y ys] L; try discriminate; cbn; [split; [reflexivity|]; intros; split; [intros []|intros (i & x & E & _); destruct i; discriminate]|]. injection L as L. destruct (IH ys L) as [E H]. split; [f_equal; exact E|].
  intros y' c. split.
  - intros [K|K]; [injection K as <- <-; exists 0%nat, x; auto|]. apply H in K. destruct K as (i & z & K). exists (S i), z. exact K.
  - intros ([|i] & z & K1 & K2 & ->); cbn in K1, K2; [injection K1 as <-; injection K2 as <-; left; reflexivity|]. right. apply H. exists i, z. auto.
Qed.
Lemma distribute_distinct {A} (f : list R -> A) ss o done outs : Forall (@NoDup R) ss -> is_shuffle (length (product ss)) o -> Permutation done (seq 0 (length (product ss))) ->
  distribute f ss o done = Ok outs -> NoDup (map fst outs) /\ forall ix out, In (ix, out) outs <-> exists vs, picks ss ix vs /\ out = f vs.
Proof.
  intros N HO HD H. destruct (distribute_perm f ss o done outs HO HD H) as (ixs & F & P).
  assert (L : length ixs = length (product ss)) by (clear -F; induction F; cbn; congruence). destruct (combine_map f (product ss) ixs L) as [EF EI]. split.
  - apply (Permutation_NoDup (l := map fst (combine ixs (map f (product ss))))); [apply Permutation_map, Permutation_sym, P|]. rewrite EF.
    assert (ND := product_NoDup ss N). clear -F ND N. induction F as [|vs ix a b E F IH]; [constructor|]. inversion ND; subst. constructor; [|apply IH; assumption]. intros K. apply H1. clear -F K E N.
    induction F as [|ws jx a b E' F IH]; [destruct K|]. destruct K as [->|K]; [left; apply (picks_det ss ix); [apply E'|apply E]|right; apply IH; exact K].
  - intros ix out. split.
    + intros K. apply (Permutation_in _ P) in K. apply EI in K. destruct K as (i & vs & K1 & K2 & ->). exists vs. split; [|reflexivity]. destruct (Forall2_nth_ _ _ _ F i vs K1) as (y & Hy & [PK _]). congruence.
    + intros (vs & PK & ->). apply (Permutation_in _ (Permutation_sym P)). apply EI. assert (IN : In vs (product ss)) by (apply product_iff; eexists; exact PK). apply In_nth_error in IN. destruct IN as [i Hi]. exists i, vs. split; [exact Hi|]. split; [|reflexivity].
      destruct (Forall2_nth_ _ _ _ F i vs Hi) as (y & Hy & [PY _]). rewrite Hy. f_equal. apply (picks_inj _ _ _ _ N PY PK).
Qed.

(** ** Coordinate descent *)
Lemma dict_set_twice k v v' : forall d, dict_set k v (dict_set k v' d) = dict_set k v d.
Proof.
  induction d as [|[k' x] d IH]; cbn [dict_set]; [rewrite String.eqb_refl; reflexivity|]. destruct (String.eqb k' k) eqn:E; cbn [dict_set]; rewrite E; [reflexivity|f_equal; exact IH].
Qed.
Lemma better_iff x b : better x b = true <-> above x b.
Proof. destruct b as [y|]; cbn; [destruct (Rlt_dec y x); split; intros; auto; discriminate|tauto]. Qed.
Lemma set_nth_end {A} (xs : list A) a b : set_nth (length xs) b (xs ++ [a]) = (xs ++ [b])%list.
Proof. induction xs; cbn; congruence. Qed.
Lemma nth_end {A} (xs : list A) a d : nth (length xs) (xs ++ [a]) d = a.
Proof. induction xs; cbn; auto. Qed.
Definition after_values (k : string) (vs : list R) (d : pdict) : pdict := fold_left (fun d v => dict_set k v d) vs d.
Lemma values_run fn op k : forall vs (h : list pdict) (d : pdict) opt best, (forall v, dict_set k v d = dict_set k v op) ->
  exists q best', descend_values fn k (length h) vs (DS (h ++ [d]) opt best) = DS (h ++ [after_values k vs d]) (match q with None => opt | Some _ => length h end) best' /\
    last_record (fun c => fn (dict_set (fst c) (snd c) op)) best (map (fun v => (k, v)) vs) q best' /\ (forall c, q = Some c -> fst c = k).
Proof.
  induction vs as [|v vs IH]; intros h d opt best HD; cbn [descend_values map].
  - exists None, best. split; [reflexivity|]. split; [constructor|discriminate].
  - cbn [ds_heap ds_best ds_opt]. rewrite nth_end, set_nth_end, HD.
    assert (HD' : forall w, dict_set k w (dict_set k v op) = dict_set k w op) by (intros; apply dict_set_twice).
    assert (EA : after_values k (v :: vs) d = after_values k vs (dict_set k v op)) by (unfold after_values; cbn; rewrite HD; reflexivity).
    destruct (better (fn (dict_set k v op)) best) eqn:B.
    + apply better_iff in B. destruct (IH h (dict_set k v op) (length h) (Some (fn (dict_set k v op))) HD') as (q & b' & E & L & K). rewrite E, EA. destruct q as [c|].
      * exists (Some c), b'. split; [reflexivity|]. split; [|exact K]. apply lr_beaten; [exact B|exact L].
      * exists (Some (k, v)), b'. split; [reflexivity|]. split; [|intros c X; injection X as <-; reflexivity]. apply lr_record; [exact B|exact L].
    + assert (NB : ~ above (fn (dict_set k v op)) best) by (intros X; apply better_iff in X; congruence). destruct (IH h (dict_set k v op) opt best HD') as (q & b' & E & L & K). exists q, b'. rewrite E, EA. split; [reflexivity|]. split; [apply lr_skip; assumption|exact K].
Qed.
Lemma record_app sc : forall cs b q1 b1 ds q2 b2, last_record sc b cs q1 b1 -> last_record sc b1 ds q2 b2 -> last_record sc b (cs ++ ds) (match q2 with Some c => Some c | None => q1 end) b2.
Proof.
  induction cs as [|c cs IH]; intros b q1 b1 ds q2 b2 A B; inversion A; subst; cbn [app].
  - destruct q2; exact B.
  - match goal with K : last_record _ _ cs _ _ |- _ => specialize (IH _ _ _ _ _ _ K B) end. destruct q2; apply lr_beaten; assumption.
  - match goal with K : last_record _ _ cs _ _ |- _ => specialize (IH _ _ _ _ _ _ K B) end. destruct q2; [apply lr_beaten; assumption|apply lr_record; assumption].
  - match goal with K : last_record _ _ cs _ _ |- _ => specialize (IH _ _ _ _ _ _ K B) end. apply lr_skip; assumption.
Qed.
Lemma after_last k : forall vs d, vs <> [] -> after_values k vs d = dict_set k (last vs 0) d.
Proof.
  induction vs as [|v vs IH]; intros d H; [contradiction|]. unfold after_values in *. cbn [fold_left]. destruct vs as [|w vs]; [reflexivity|]. rewrite IH by discriminate. apply dict_set_twice.
Qed.

Lemma record_in sc : forall cs b c b', last_record sc b cs (Some c) b' -> In c cs.
Proof. induction cs as [|d cs IH]; intros b c b' H; inversion H; subst; [right; eapply IH; eassumption|left; reflexivity|right; eapply IH; eassumption]. Qed.
Lemma items_run fn op n p : (0 <= n)%Z -> forall items (h : list pdict) opt best q0, (forall kv, In kv items -> In kv op) -> nth 0 h [] = op -> (opt < length h)%nat ->
  final_dict op (Z.to_nat n) p q0 (nth opt h []) ->
  exists s q cs, descend_items fn n p items (DS h opt best) = Ok s /\ candidates items (Z.to_nat n) p cs /\
    last_record (fun c => fn (dict_set (fst c) (snd c) op)) best cs q (ds_best s) /\ final_dict op (Z.to_nat n) p (match q with Some c => Some c | None => q0 end) (nth (ds_opt s) (ds_heap s) []).
Proof.
  intros Hn. induction items as [|[k v0] items IH]; intros h opt best q0 HI H0 HO HF; cbn [descend_items].
  - exists (DS h opt best), None, []. split; [reflexivity|]. split; [exists []; split; [constructor|reflexivity]|]. split; [constructor|exact HF].
  - cbn [ds_heap ds_opt ds_best]. destruct (linspace_ok ((1 - p) * v0) ((1 + p) * v0) n Hn) as (vs & EL & EV). rewrite EL. cbn [rbind]. rewrite H0.
    destruct (values_run fn op k vs h op opt best (fun v => eq_refl)) as (q1 & b1 & E & L1 & K1). rewrite E.
    set (opt1 := match q1 with Some _ => length h | None => opt end).
    assert (F1 : final_dict op (Z.to_nat n) p (match q1 with Some c => Some c | None => q0 end) (nth opt1 (h ++ [after_values k vs op]) [])).
    { unfold opt1. destruct q1 as [[k1 v1]|].
      - assert (k1 = k) by (apply (K1 (k1, v1)); reflexivity). subst k1. rewrite nth_end. cbn. exists v0, vs. split; [apply HI; left; reflexivity|]. split; [exact EV|]. apply after_last. intros ->. apply record_in in L1. destruct L1.
      - rewrite app_nth1 by exact HO. exact HF. }
    destruct (IH (h ++ [after_values k vs op])%list opt1 b1 (match q1 with Some c => Some c | None => q0 end)) as (s & q & cs & E2 & C & L2 & F2).
    + intros kv Hk. apply HI. right. exact Hk.
    + rewrite app_nth1 by lia. exact H0.
    + rewrite app_length. cbn. unfold opt1. destruct q1; lia.
    + exact F1.
    + exists s, (match q with Some c => Some c | None => q1 end), (map (fun v => (k, v)) vs ++ cs)%list. split; [exact E2|]. split; [|split].
      * destruct C as (vss & C1 & ->). exists (vs :: vss). split; [constructor; [exact EV|exact C1]|]. reflexivity.
      * eapply record_app; eassumption.
      * destruct q; exact F2.
Qed.
Lemma descent_ok op fn best n p : (0 <= n)%Z -> exists d b q cs, coordinate_descent op fn best n p = Ok (d, b) /\ candidates op (Z.to_nat n) p cs /\
  last_record (fun c => fn (dict_set (fst c) (snd c) op)) best cs q b /\ final_dict op (Z.to_nat n) p q d.
Proof.
  intros Hn. destruct (items_run fn op n p Hn op [op] 0%nat best None ltac:(auto) eq_refl ltac:(cbn; lia) eq_refl) as (s & q & cs & E & C & L & F).
  exists (nth (ds_opt s) (ds_heap s) []), (ds_best s), q, cs. unfold coordinate_descent. rewrite E. split; [reflexivity|]. split; [exact C|]. split; [exact L|]. destruct q; exact F.
Qed.
Lemma descent_negative op fn best n p : (n < 0)%Z -> op <> [] -> coordinate_descent op fn best n p = Err (Throw "Number of samples must be non-negative.").
Proof. intros Hn H. destruct op as [|[k v] op]; [contradiction|]. unfold coordinate_descent. cbn [descend_items]. unfold linspace. destruct (Z.ltb_spec n 0); [reflexivity|lia]. Qed.
(** Best value: the maximum of the start value and all scores. *)
Lemma record_best sc : forall cs b q b', last_record sc b cs q b' ->
  (forall c, In c cs -> exists y, b' = Some y /\ sc c <= y) /\ (forall x, b = Some x -> exists y, b' = Some y /\ x <= y) /\
  (match q with None => b' = b | Some c => In c cs /\ b' = Some (sc c) end).
Proof.
  induction cs as [|c cs IH]; intros b q b' H; inversion H; subst.
  - split; [intros c []|]. split; [intros x ->; exists x; split; [reflexivity|lra]|reflexivity].
  - match goal with K : last_record _ _ cs _ _ |- _ => destruct (IH _ _ _ K) as (A & B & [C1 C2]) end. split; [|split].
    + intros d [<-|Hd]; [apply B; reflexivity|apply A; exact Hd].
    + intros x ->. destruct (B _ eq_refl) as (y & E & L). exists y. split; [exact E|]. match goal with K : above _ _ |- _ => cbn in K; lra end.
    + split; [right; exact C1|exact C2].
  - match goal with K : last_record _ _ cs _ _ |- _ => destruct (IH _ _ _ K) as (A & B & C) end. split; [|split].
    + intros d [<-|Hd]; [apply B; reflexivity|apply A; exact Hd].
    + intros x ->. destruct (B _ eq_refl) as (y & E & L). exists y. split; [exact E|]. match goal with K : above _ _ |- _ => cbn in K; lra end.
    + split; [left; reflexivity|exact C].
  - match goal with K : last_record _ _ cs _ _ |- _ => destruct (IH _ _ _ K) as (A & B & C) end. split; [|split].
    + intros d [<-|Hd]; [|apply A; exact Hd]. destruct b as [x|]; [|match goal with K : ~ above _ None |- _ => exfalso; apply K; exact I end]. destruct (B x eq_refl) as (y & E & L). exists y. split; [exact E|]. match goal with K : ~ above _ _ |- _ => cbn in K; lra end.
    + exact B.
    + destruct q as [d|]; [destruct C as [C1 C2]; split; [right; exact C1|exact C2]|exact C].
Qed.
Lemma evenly_last a b n vs : evenly a b n vs -> (2 <= n)%nat -> last vs 0 = b.
Proof.
  intros (L & _ & H & _) Hn. specialize (H Hn). destruct vs as [|v vs] using rev_ind; [cbn in L; lia|]. rewrite last_last. rewrite app_length in L. cbn in L. rewrite nth_error_app2 in H by lia. replace (n - 1 - length vs)%nat with 0%nat in H by lia. cbn in H. congruence.
Qed.
