(** Lemmas on EnergyCompute. *)
From Verif Require Export S_Energy P_ProcMore.
From Coq Require Import String Ascii List Permutation Classical_Prop.
Open Scope R_scope.
Open Scope st_scope.

(** ** Strings *)
Lemma sapp_nil s : (s ++ "" = s)%string.
Proof. induction s; cbn; congruence. Qed.
Lemma prefix_iff p s : String.prefix p s = true <-> Starts p s.
Proof.
  revert s. induction p as [|a p IH]; intros s.
  - split; [intros _; exists s; reflexivity|intros _; destruct s; reflexivity].
  - destruct s as [|b s]; cbn.
    + split; [discriminate|intros (r & X); discriminate].
    + destruct (ascii_dec a b) as [->|D].
      * rewrite IH. split; intros (r & E); exists r; [rewrite E; reflexivity|injection E as E; exact E].
      * split; [discriminate|]. intros (r & E). injection E as E _. congruence.
Qed.
Lemma index_none sub : forall s, String.index 0 sub s = None <-> ~ Infix sub s.
Proof.
  induction s as [|c s IH].
  - destruct sub as [|a sub]; cbn.
    + split; [discriminate|]. intros H. exfalso. apply H. exists ""%string, ""%string. reflexivity.
    + split; [|reflexivity]. intros _ (x & y & E). destruct x; discriminate.
  - assert (EQ : Infix sub (String c s) <-> Starts sub (String c s) \/ Infix sub s).
    { split.
      - intros (x & y & E). destruct x as [|d x]; [left; exists y; exact E|]. right. injection E as -> E. exists x, y. exact E.
      - intros [(y & E)|(x & y & E)]; [exists ""%string, y; exact E|exists (String c x), y; rewrite E; reflexivity]. }
    rewrite EQ. cbn [String.index]. rewrite <- prefix_iff. destruct (String.prefix sub (String c s)) eqn:P.
    + split; [discriminate|]. intros H. exfalso. apply H. left. reflexivity.
    + destruct (String.index 0 sub s) eqn:E.
      * split; [discriminate|]. intros H. exfalso. assert (X : ~ Infix sub s) by (intros Y; apply H; right; exact Y). apply IH in X. discriminate.
      * split; [|reflexivity]. intros _ [X|X]; [discriminate|]. apply IH in X; [destruct X|reflexivity].
Qed.
Lemma contains_iff sub s : contains sub s = true <-> Infix sub s.
Proof.
  unfold contains. pose proof (index_none sub s) as H. destruct (String.index 0 sub s) eqn:E.
  - split; [intros _|reflexivity]. destruct (Classical_Prop.classic (Infix sub s)) as [X|X]; [exact X|]. apply H in X. discriminate.
  - split; [discriminate|]. intros X. exfalso. apply H; [reflexivity|exact X].
Qed.
Lemma drop_last_snoc s c : drop_last (s ++ String c "") = s.
Proof.
  unfold drop_last. induction s as [|d s IH]; [reflexivity|]. cbn [append String.length] in *.
  assert (L : String.length (s ++ String c "") = S (String.length s)).
  { clear. induction s; cbn; congruence. }
  rewrite L in *. replace (S (S (String.length s)) - 1)%nat with (S (String.length s)) by lia.
  replace (S (String.length s) - 1)%nat with (String.length s) in IH by lia. cbn [substring]. rewrite IH. reflexivity.
Qed.
Lemma snoc_cases s : s = ""%string \/ exists p c, s = (p ++ String c "")%string.
Proof.
  induction s as [|a s IH]; [left; reflexivity|]. right. destruct IH as [->|(p & c & ->)].
  - exists ""%string, a. reflexivity.
  - exists (String a p), c. reflexivity.
Qed.
Lemma plain_us s : plain s <-> us s = 0%nat.
Proof.
  induction s as [|c s IH]; cbn [us].
  - split; [reflexivity|]. intros _ (a & b & E). destruct a; discriminate.
  - destruct (Ascii.eqb_spec c "_"%char) as [->|D].
    + split; [|lia]. intros H. exfalso. apply H. exists ""%string, s. reflexivity.
    + cbn [Nat.add]. rewrite <- IH. split; intros H (a & b & E).
      * apply H. exists (String c a), b. rewrite E. reflexivity.
      * destruct a as [|d a]; [injection E as E _; congruence|]. injection E as _ E. apply H. exists a, b. exact E.
Qed.
Lemma before_underscore_iff k p : before_underscore k = p <-> first_word k p.
Proof.
  assert (F : forall k, first_word k (before_underscore k)).
  { clear. induction k as [|c k IH]; cbn.
    - split; [apply plain_us; reflexivity|left; reflexivity].
    - destruct (Ascii.eqb_spec c "_"%char) as [->|D].
      + split; [apply plain_us; reflexivity|]. right. exists k. reflexivity.
      + destruct IH as [P IH]. split; [apply plain_us; cbn; apply Ascii.eqb_neq in D; rewrite D; apply plain_us in P; rewrite P; reflexivity|].
        destruct IH as [<-|(r & E)]; [left; reflexivity|right; exists r; rewrite E at 1; reflexivity]. }
  split; [intros <-; apply F|]. revert p. induction k as [|c k IH]; intros p [P H].
  - destruct H as [<-|(r & E)]; [reflexivity|]. destruct p; discriminate.
  - cbn [before_underscore]. destruct (Ascii.eqb_spec c "_"%char) as [->|D].
    + destruct p as [|d p]; [reflexivity|]. exfalso. assert (d = "_"%char) as -> by (destruct H as [E|(r & E)]; injection E; congruence).
      apply P. exists ""%string, p. reflexivity.
    + destruct p as [|d p]; [exfalso; destruct H as [E|(r & E)]; [discriminate|injection E as E _; congruence]|].
      assert (d = c) as -> by (destruct H as [E|(r & E)]; injection E; congruence). f_equal. apply IH. split.
      * intros (a & b & E). apply P. exists (String c a), b. rewrite E. reflexivity.
      * destruct H as [E|(r & E)]; injection E as E; [left; exact E|right; exists r; exact E].
Qed.
Lemma starts_mx_iff a b c s : Starts "_mx" (String a (String b (String c s))) <-> (a = "_" /\ b = "m" /\ c = "x")%char.
Proof.
  split.
  - intros (r & E). cbn in E. injection E as -> -> -> _. auto.
  - intros (-> & -> & ->). exists s. reflexivity.
Qed.
Lemma remove_mx_erased : forall n k, (String.length k <= n)%nat -> Erased k (remove_mx k).
Proof.
  induction n as [|n IH]; intros k L.
  - destruct k; [constructor|cbn in L; lia].
  - destruct k as [|a [|b [|c k]]].
    + constructor.
    + constructor; [intros (r & E); discriminate|constructor].
    + constructor; [intros (r & E); discriminate|]. constructor; [intros (r & E); discriminate|constructor].
    + change (remove_mx (String a (String b (String c k)))) with (if Ascii.eqb a "_"%char && Ascii.eqb b "m"%char && Ascii.eqb c "x"%char then remove_mx k else String a (remove_mx (String b (String c k)))).
      destruct (Ascii.eqb a "_"%char && Ascii.eqb b "m"%char && Ascii.eqb c "x"%char) eqn:E.
      * apply andb_prop in E. destruct E as [E E3]. apply andb_prop in E. destruct E as [E1 E2]. apply Ascii.eqb_eq in E1, E2, E3. subst.
        apply (Erased_mx k). apply IH. cbn in L. lia.
      * constructor; [|apply IH; cbn in *; lia]. rewrite starts_mx_iff. intros (-> & -> & ->). discriminate.
Qed.
Lemma erased_fun k r : Erased k r -> forall r', Erased k r' -> r' = r.
Proof.
  induction 1 as [|s r H IH|c s r N H IH]; intros r' H'.
  - inversion H'. reflexivity.
  - inversion H' as [|s0 r0 H0 E|c s0 r0 N H0 E]; subst.
    + apply IH. exact H0.
    + exfalso. apply N. exists s. reflexivity.
  - inversion H' as [|s0 r0 H0 E|c0 s0 r0 N0 H0 E]; subst.
    + exfalso. apply N. exists s0. reflexivity.
    + f_equal. apply IH. exact H0.
Qed.
Lemma remove_mx_iff k r : remove_mx k = r <-> Erased k r.
Proof.
  pose proof (remove_mx_erased (String.length k) k (le_n _)) as H. split; [intros <-; exact H|]. intros H'. exact (erased_fun _ _ H' _ H).
Qed.

(** ** The table *)
Lemma zip3_iff : forall xs ys zs vs, zip3 xs ys zs = Ok vs <-> xs = map cx vs /\ ys = map cy vs /\ zs = map cz vs.
Proof.
  intros xs ys zs vs. split.
  - revert ys zs vs. induction xs as [|x xs IH]; intros [|y ys] [|z zs] vs E; try discriminate.
    + injection E as <-. auto.
    + cbn [zip3] in E. apply rbind_iff in E. destruct E as (r & E & F). injection F as <-. apply IH in E. destruct E as (-> & -> & ->). auto.
  - intros (-> & -> & ->). apply zip3_map.
Qed.
Lemma dict_at_iff k g c : dict_at k g = Ok c <-> log_get k g = Some c.
Proof. unfold dict_at. destruct (log_get k g); split; intros H; try discriminate; congruence. Qed.
Lemma read_iff3 g k vs : (x <-- dict_at (k ++ "x")%string g ;; y <-- dict_at (k ++ "y")%string g ;; z <-- dict_at (k ++ "z")%string g ;; zip3 x y z) = Ok vs <-> reads g k vs.
Proof.
  split.
  - intros E. apply rbind_iff in E. destruct E as (x & Ex & E). apply rbind_iff in E. destruct E as (y & Ey & E). apply rbind_iff in E. destruct E as (z & Ez & E).
    apply zip3_iff in E. destruct E as (-> & -> & ->). apply dict_at_iff in Ex, Ey, Ez. split; [|split]; assumption.
  - intros (Ex & Ey & Ez). apply dict_at_iff in Ex, Ey, Ez. rewrite Ex, Ey, Ez. cbn [rbind]. apply zip3_map.
Qed.
Lemma layer_traj_iff g p m : layer_traj g p = Ok m <-> reads g (p ++ "_m") m.
Proof.
  rewrite <- read_iff3. unfold layer_traj. rewrite !sapp_assoc. reflexivity.
Qed.
Lemma reads_fun g k a b : reads g k a -> reads g k b -> a = b.
Proof. rewrite <- !read_iff3. intros A B. rewrite A in B. injection B as <-. reflexivity. Qed.
Lemma products_iff m h v : column_products m h = Ok v <-> exists ps, Paired m h ps /\ v = map (fun mh => Dot (fst mh) (snd mh)) ps.
Proof.
  assert (D : forall ps : list (cvec * cvec), map (fun p => c_dot (fst p) (snd p)) ps = map (fun mh => Dot (fst mh) (snd mh)) ps).
  { intros ps. apply map_ext. intros [a b]. apply c_dot_Dot. }
  unfold column_products. destruct (Nat.eqb_spec (length m) (length h)) as [L|L].
  - rewrite D. split.
    + intros E. injection E as <-. exists (combine m h). split; [|reflexivity]. left. split; [exact L|]. split.
      * clear D. revert h L. induction m as [|a m IH]; intros [|b h] L; try discriminate; [reflexivity|]. cbn. f_equal. apply IH. cbn in L. lia.
      * clear D. revert m L. induction h as [|b h IH]; intros [|a m] L; try discriminate; [reflexivity|]. cbn. f_equal. apply IH. cbn in L. lia.
    + intros (ps & [(_ & <- & <-)|[(X & h0 & -> & ->)|(X & m0 & -> & ->)]] & ->).
      * f_equal. f_equal. clear. induction ps as [|[a b] ps IH]; [reflexivity|]. cbn. f_equal. exact IH.
      * cbn in L. contradiction.
      * cbn in L. symmetry in L. contradiction.
  - assert (C1 : forall h0, h = [h0] -> Ok (map (fun v => c_dot v h0) m) = Ok v <-> exists ps, Paired m h ps /\ v = map (fun mh => Dot (fst mh) (snd mh)) ps).
    { intros h0 ->. cbn in L. split.
      - intros E. injection E as <-. exists (map (fun v => (v, h0)) m). split; [right; left; split; [exact L|]; exists h0; split; reflexivity|].
        rewrite map_map. apply map_ext. intros a. apply c_dot_Dot.
      - intros (ps & [(X & _)|[(_ & h1 & E & ->)|(X & _)]] & ->); [contradiction| |cbn in X; contradiction]. injection E as <-. rewrite map_map. f_equal. apply map_ext. intros a. apply c_dot_Dot. }
    assert (C2 : forall m0, m = [m0] -> Ok (map (fun v => c_dot m0 v) h) = Ok v <-> exists ps, Paired m h ps /\ v = map (fun mh => Dot (fst mh) (snd mh)) ps).
    { intros m0 ->. cbn in L. split.
      - intros E. injection E as <-. exists (map (fun v => (m0, v)) h). split; [right; right; split; [intros X; apply L; symmetry; exact X|]; exists m0; split; reflexivity|].
        rewrite map_map. apply map_ext. intros a. apply c_dot_Dot.
      - intros (ps & [(X & _)|[(X & _)|(_ & m1 & E & ->)]] & ->); [contradiction|cbn in X; contradiction|]. injection E as <-. rewrite map_map. f_equal. apply map_ext. intros a. apply c_dot_Dot. }
    assert (C3 : (forall h0, h <> [h0]) -> (forall m0, m <> [m0]) -> @Err (list R) (Throw "operands could not be broadcast together") = Ok v <-> exists ps, Paired m h ps /\ v = map (fun mh => Dot (fst mh) (snd mh)) ps).
    { intros N1 N2. split; [discriminate|]. intros (ps & [(X & _)|[(_ & h1 & E & _)|(_ & m1 & E & _)]] & _); [contradiction|destruct (N1 _ E)|destruct (N2 _ E)]. }
    destruct m as [|m0 [|m1 m]], h as [|h0 [|h1 h]]; try (apply C1; reflexivity); try (apply C2; reflexivity); apply C3; congruence.
Qed.
Lemma Paired_fun m h a b : Paired m h a -> Paired m h b -> a = b.
Proof.
  assert (C : forall ps : list (cvec * cvec), ps = combine (map fst ps) (map snd ps)).
  { induction ps as [|[x y] ps IH]; [reflexivity|]. cbn. f_equal. exact IH. }
  intros [(L & E1 & E2)|[(L & h0 & E1 & E2)|(L & m0 & E1 & E2)]] [(L' & F1 & F2)|[(L' & h1 & F1 & F2)|(L' & m1 & F1 & F2)]].
  - rewrite (C a), (C b). congruence.
  - exfalso. apply L'. rewrite L, F1. reflexivity.
  - exfalso. apply L'. rewrite <- L, F1. reflexivity.
  - exfalso. apply L. rewrite L', E1. reflexivity.
  - assert (h0 = h1) by congruence. subst. reflexivity.
  - exfalso. apply L. rewrite F1. reflexivity.
  - exfalso. apply L. rewrite <- L', E1. reflexivity.
  - exfalso. apply L. rewrite F1. reflexivity.
  - assert (m0 = m1) by congruence. subst. reflexivity.
Qed.
Lemma per_iff S t f (e : R -> list cvec -> list cvec -> result (list R)) m h v :
  (forall A m h v, e A m h = Ok v <-> exists ps, Paired m h ps /\ (ps = [] \/ A <> 0) /\ v = map (fun mh => - Dot (fst mh) (snd mh) / A) ps) ->
  (if contains "J_" f then e S else e (S * t)) m h = Ok v <-> exists A ps, per S t f A /\ Paired m h ps /\ (ps = [] \/ A <> 0) /\ v = map (fun mh => - Dot (fst mh) (snd mh) / A) ps.
Proof.
  intros HE. unfold per. destruct (contains "J_" f) eqn:C.
  - rewrite HE. apply contains_iff in C. split; [intros (ps & H); exists S, ps; split; [left; split; [exact C|reflexivity]|exact H]|].
    intros (A & ps & [(_ & ->)|(X & _)] & H); [exists ps; exact H|contradiction].
  - rewrite HE. assert (C' : ~ Infix "J_" f) by (rewrite <- contains_iff, C; discriminate). split; [intros (ps & H); exists (S * t), ps; split; [right; split; [exact C'|reflexivity]|exact H]|].
    intros (A & ps & [(X & _)|(_ & ->)] & H); [contradiction|exists ps; exact H].
Qed.
Lemma fdiv_ok_iff a b q : fdiv a b = Ok q <-> b <> 0 /\ q = a / b.
Proof. unfold fdiv. destruct (Req_EM_T b 0) as [Z|Z]; split; intros H; try discriminate; try tauto; [injection H as <-; tauto|destruct H as [_ ->]; reflexivity]. Qed.
Lemma divided_iff A m h v : (s <-- column_products m h ;; mapM (fun x => fdiv (- x) A) s) = Ok v <->
  exists ps, Paired m h ps /\ (ps = [] \/ A <> 0) /\ v = map (fun mh => - Dot (fst mh) (snd mh) / A) ps.
Proof.
  rewrite rbind_iff. split.
  - intros (s & Es & E). apply products_iff in Es. destruct Es as (ps & P & ->). exists ps. split; [exact P|].
    destruct ps as [|q ps]; [split; [left; reflexivity|injection E as <-; reflexivity]|].
    assert (Z : A <> 0).
    { cbn [map mapM] in E. apply rbind_iff in E. destruct E as (y & E & _). apply fdiv_ok_iff in E. apply E. }
    split; [right; exact Z|]. rewrite (mapM_pure _ (fun x => - x / A)) in E; [|intros x _; apply fdiv_ok_iff; split; [exact Z|reflexivity]].
    injection E as <-. rewrite <- (map_map (fun mh => Dot (fst mh) (snd mh)) (fun x => - x / A)). reflexivity.
  - intros (ps & P & Z & ->). exists (map (fun mh => Dot (fst mh) (snd mh)) ps). split; [apply products_iff; exists ps; split; [exact P|reflexivity]|].
    destruct Z as [->|Z]; [reflexivity|]. rewrite (mapM_pure _ (fun x => - x / A)); [|intros x _; apply fdiv_ok_iff; split; [exact Z|reflexivity]].
    rewrite map_map. reflexivity.
Qed.
Definition calc (A : R) (m h : list cvec) : result (list R) := s <-- column_products m h ;; mapM (fun x => fdiv (- x) A) s.
Lemma field_keys_iff g f : In f (nodup string_dec (map drop_last (filter (contains "_H") (map fst g)))) <-> field_key g f.
Proof.
  rewrite nodup_In, in_map_iff. split.
  - intros (k & <- & H). apply filter_In in H. destruct H as [H C]. apply contains_iff in C.
    destruct (snoc_cases k) as [->|(p & c & ->)]; [destruct C as (a & b & E); destruct a; discriminate|]. rewrite drop_last_snoc. exists c. split; [exact H|exact C].
  - intros (c & H & C). exists (f ++ String c "")%string. rewrite drop_last_snoc. split; [reflexivity|]. apply filter_In. split; [exact H|apply contains_iff, C].
Qed.
Definition mags_of (g : log_t) : result (list (string * list cvec)) :=
  mapM (fun k => let k := remove_mx k in v <-- layer_traj g k ;; Ok (k, v)) (filter (contains "_mx") (map fst g)).
Lemma mags_of_names g d : mags_of g = Ok d -> (forall p m, In (p, m) d <-> mag_name g p /\ reads g (p ++ "_m") m) /\ forall p, mag_name g p -> exists m, reads g (p ++ "_m") m.
Proof.
  unfold mags_of. intros E. apply mapM_iff in E.
  assert (G : forall ks d, Forall2 (fun x y => (let k := remove_mx x in v <-- layer_traj g k ;; Ok (k, v)) = Ok y) ks d ->
     (forall p m, In (p, m) d <-> (exists key, In key ks /\ Erased key p) /\ reads g (p ++ "_m") m) /\ forall p, (exists key, In key ks /\ Erased key p) -> exists m, reads g (p ++ "_m") m).
  { clear. intros ks d F. induction F as [|k [p m] ks d H F (IH1 & IH2)].
    - split; [intros p m; split; [intros []|intros ((k & [] & _) & _)]|intros p (k & [] & _)].
    - cbn zeta in H. apply rbind_iff in H. destruct H as (v & H & X). injection X as <- <-. apply layer_traj_iff in H. pose proof (proj1 (remove_mx_iff k _) eq_refl) as HE. split.
      + intros p m. cbn [In]. rewrite IH1. split.
        * intros [X|((key & K1 & K2) & X)]; [injection X as <- <-; split; [exists k; split; [left; reflexivity|exact HE]|exact H]|split; [exists key; split; [right; exact K1|exact K2]|exact X]].
        * intros ((key & [<-|K1] & K2) & X); [left|right; split; [exists key; split; assumption|exact X]].
          pose proof (erased_fun _ _ HE _ K2) as ->. rewrite (reads_fun _ _ _ _ H X). reflexivity.
      + intros p (key & [<-|K1] & K2); [exists v; rewrite (erased_fun _ _ HE _ K2); exact H|apply IH2; exists key; split; assumption]. }
  destruct (G _ _ E) as (G1 & G2).
  assert (N : forall p, (exists key, In key (filter (contains "_mx") (map fst g)) /\ Erased key p) <-> mag_name g p).
  { intros p. split; intros (key & H).
    - destruct H as (H1 & H2). apply filter_In in H1. destruct H1 as (H1 & C). apply contains_iff in C. exists key. split; [exact H1|]. split; assumption.
    - destruct H as (H1 & C & H2). exists key. split; [apply filter_In; split; [exact H1|apply contains_iff, C]|exact H2]. }
  split; [intros p m; rewrite G1, N; reflexivity|intros p H; apply G2, N, H].
Qed.
Lemma mags_of_some g : (forall p, mag_name g p -> exists m, reads g (p ++ "_m") m) -> exists d, mags_of g = Ok d.
Proof.
  unfold mags_of, mag_name. intros H.
  assert (H' : forall key, In key (filter (contains "_mx") (map fst g)) -> exists m, layer_traj g (remove_mx key) = Ok m).
  { intros key K. apply filter_In in K. destruct K as (K & C). apply contains_iff in C. destruct (H (remove_mx key)) as (m & R); [exists key; split; [exact K|]; split; [exact C|apply remove_mx_iff; reflexivity]|].
    exists m. apply layer_traj_iff. exact R. }
  clear H. induction (filter (contains "_mx") (map fst g)) as [|k ks IH]; [exists []; reflexivity|].
  destruct IH as (d & E); [intros key K; apply H'; right; exact K|]. destruct (H' k (or_introl eq_refl)) as (m & Em).
  exists ((remove_mx k, m) :: d). cbn [mapM]. cbn zeta. rewrite Em. cbn [rbind]. rewrite E. reflexivity.
Qed.
Lemma find_iff p m g d : (forall q n, In (q, n) d <-> mag_name g q /\ reads g (q ++ "_m") n) -> find_vectors p d = Ok m <-> mag_name g p /\ reads g (p ++ "_m") m.
Proof.
  intros H. rewrite <- H. assert (U : forall a b, In (p, a) d -> In (p, b) d -> a = b).
  { intros a b A B. apply H in A, B. exact (reads_fun _ _ _ _ (proj2 A) (proj2 B)). }
  clear H. induction d as [|[q n] d IH]; cbn [find_vectors In].
  - split; [discriminate|intros []].
  - destruct (String.eqb_spec q p) as [->|D].
    + split; [intros E; injection E as <-; left; reflexivity|]. intros X. f_equal. apply U; [left; reflexivity|exact X].
    + rewrite IH by (intros a b A B; apply U; right; assumption). split; [intros X; right; exact X|intros [X|X]; [injection X as -> _; contradiction|exact X]].
Qed.
Definition entry (S t : R) (g : log_t) (d : list (string * list cvec)) (f : string) : result (string * list R) :=
    m <-- find_vectors (before_underscore f) d ;;
    x <-- dict_at (f ++ "x")%string g ;;
    y <-- dict_at (f ++ "y")%string g ;;
    z <-- dict_at (f ++ "z")%string g ;;
    h <-- zip3 x y z ;;
    v <-- (if contains "J_" f then calc S else calc (S * t)) m h ;;
    Ok (("energy_" ++ f)%string, v).
Lemma entry_iff S t g d f k v : mags_of g = Ok d -> entry S t g d f = Ok (k, v) <-> k = ("energy_" ++ f)%string /\ energy_entry S t g f v.
Proof.
  intros HD. destruct (mags_of_names g d HD) as (HN & _). unfold entry. split.
  - intros E. apply rbind_iff in E. destruct E as (m & Em & E). apply rbind_iff in E. destruct E as (x & Ex & E). apply rbind_iff in E. destruct E as (y & Ey & E).
    apply rbind_iff in E. destruct E as (z & Ez & E). apply rbind_iff in E. destruct E as (h & Eh & E). apply rbind_iff in E. destruct E as (u & Eu & E). injection E as <- <-.
    split; [reflexivity|]. apply (find_iff _ _ g) in Em; [|exact HN]. destruct Em as (Nm & Rm). apply (per_iff S t f calc) in Eu; [|intros; apply divided_iff].
    destruct Eu as (A & ps & P & Q & Z & ->). exists (before_underscore f), m, h, ps, A. split; [apply before_underscore_iff; reflexivity|]. split; [exact Nm|]. split; [exact Rm|].
    split; [apply read_iff3; rewrite Ex, Ey, Ez; exact Eh|]. split; [exact Q|]. split; [exact P|]. split; [exact Z|reflexivity].
  - intros (-> & p & m & h & ps & A & W & Nm & Rm & Rh & Q & P & Z & ->). apply before_underscore_iff in W. rewrite W.
    rewrite (proj2 (find_iff p m g d HN) (conj Nm Rm)). cbn [rbind]. destruct Rh as (Rx & Ry & Rz). apply dict_at_iff in Rx, Ry, Rz. rewrite Rx, Ry, Rz. cbn [rbind]. rewrite zip3_map. cbn [rbind].
    assert (EC : (if contains "J_" f then calc S else calc (S * t)) m h = Ok (map (fun mh => - Dot (fst mh) (snd mh) / A) ps)).
    { apply (per_iff S t f calc); [intros; apply divided_iff|]. exists A, ps. split; [exact P|]. split; [exact Q|]. split; [exact Z|reflexivity]. }
    rewrite EC. reflexivity.
Qed.
Lemma compute_unfold S t g : compute_from_log (EnergyCompute S t g) =
  (d <-- mags_of g ;; mapM (entry S t g d) (nodup string_dec (map drop_last (filter (contains "_H") (map fst g))))).
Proof.
  unfold compute_from_log, mags_of. cbn [ec_log EnergyCompute]. destruct (mapM _ (filter (contains "_mx") (map fst g))) as [d|]; [|reflexivity]. cbn [rbind].
  generalize (nodup string_dec (map drop_last (filter (contains "_H") (map fst g)))). induction l as [|f fs IH]; [reflexivity|].
  cbn [mapM]. rewrite IH. unfold entry, calculate_energy_from_field, calculate_energy_from_field_interfacial, calc. cbn [ec_cell_surface ec_cell_volume].
  destruct (contains "J_" f); reflexivity.
Qed.
Lemma energy_prefix_inj a b : ("energy_" ++ a = "energy_" ++ b)%string -> a = b.
Proof. cbn. congruence. Qed.
Lemma compute_sound S t g data : compute_from_log (EnergyCompute S t g) = Ok data -> energy_table S t g data.
Proof.
  rewrite compute_unfold. intros E. apply rbind_iff in E. destruct E as (d & Ed & E). destruct (mags_of_names g d Ed) as (HN & HM).
  apply mapM_iff in E. set (fs := nodup string_dec (map drop_last (filter (contains "_H") (map fst g)))) in *.
  assert (ND : NoDup fs) by apply NoDup_nodup. assert (FK : forall f, In f fs <-> field_key g f) by (intros; apply field_keys_iff). clearbody fs.
  assert (M : map fst data = map (append "energy_") fs).
  { clear ND FK. induction E as [|f [k v] fs data H F IH]; [reflexivity|]. apply (entry_iff S t g d f k v Ed) in H. destruct H as (-> & _). cbn [map fst]. f_equal. exact IH. }
  split; [exact HM|]. split; [rewrite M; apply FinFun.Injective_map_NoDup; [intros a b; apply energy_prefix_inj|exact ND]|].
  assert (IFF : forall k v, In (k, v) data <-> exists f, In f fs /\ k = ("energy_" ++ f)%string /\ energy_entry S t g f v).
  { clear ND FK M. intros k v. induction E as [|f [k0 v0] fs data H F IH]; [split; [intros []|intros (f & [] & _)]|]. cbn [In]. rewrite IH. split.
    - intros [X|(f' & I & X)]; [injection X as -> ->; exists f; split; [left; reflexivity|]; apply (entry_iff S t g d f k v Ed), H|exists f'; split; [right; exact I|exact X]].
    - intros (f' & [<-|I] & X); [left|right; exists f'; split; assumption]. apply (entry_iff S t g d f k v Ed) in X. rewrite H in X. injection X as -> ->. reflexivity. }
  split.
  - intros k v. rewrite IFF. split; intros (f & I & X); [exists f; split; [apply X|]; split; [apply FK, I|apply X]|exists f; split; [apply FK, X|]; split; [exact I|apply X]].
  - intros f X. apply FK in X. clear -E X Ed. induction E as [|f0 [k0 v0] fs data H F IH]; [destruct X|]. destruct X as [->|X]; [|apply IH, X].
    exists v0. apply (entry_iff S t g d f k0 v0 Ed), H.
Qed.
Lemma compute_some S t g : (forall p, mag_name g p -> exists m, reads g (p ++ "_m") m) -> (forall f, field_key g f -> exists v, energy_entry S t g f v) ->
  exists data, compute_from_log (EnergyCompute S t g) = Ok data.
Proof.
  intros HM HE. destruct (mags_of_some g HM) as (d & Ed). rewrite compute_unfold, Ed. cbn [rbind].
  assert (FK : forall f, In f (nodup string_dec (map drop_last (filter (contains "_H") (map fst g)))) -> field_key g f) by (intros f; apply field_keys_iff).
  induction (nodup string_dec (map drop_last (filter (contains "_H") (map fst g)))) as [|f fs IH]; [exists []; reflexivity|].
  destruct (HE f (FK f (or_introl eq_refl))) as (v & Hv). destruct IH as (data & ED); [intros f' I; apply FK; right; exact I|].
  exists ((("energy_" ++ f)%string, v) :: data). cbn [mapM]. rewrite (proj2 (entry_iff S t g d f _ v Ed) (conj eq_refl Hv)). cbn [rbind]. rewrite ED. reflexivity.
Qed.
Lemma compute_iff S t g data : (exists data', Permutation data data' /\ compute_from_log (EnergyCompute S t g) = Ok data') <-> energy_table S t g data.
Proof.
  split.
  - intros (data' & P & E). apply compute_sound in E. destruct E as (H1 & H2 & H3 & H4). split; [exact H1|]. split; [exact (Permutation_NoDup (Permutation_map fst (Permutation_sym P)) H2)|].
    split; [|exact H4]. intros k v. rewrite <- H3. split; intros X; [exact (Permutation_in _ P X)|exact (Permutation_in _ (Permutation_sym P) X)].
  - intros (H1 & H2 & H3 & H4). destruct (compute_some S t g H1 H4) as (data' & E). exists data'. split; [|exact E]. apply compute_sound in E. destruct E as (_ & H2' & H3' & _).
    apply NoDup_Permutation; [exact (NoDup_map_inv _ _ H2)|exact (NoDup_map_inv _ _ H2')|]. intros [k v]. rewrite H3, H3'. reflexivity.
Qed.
