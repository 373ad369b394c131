(** The substituted matrix of the analytical roots. *)
From Verif Require Import P_Sym P_SB P_SBMotion P_SBTheorems P_TwoSolvers.
From Verif Require Export S_Analytic.
From Coq Require Import Reals Lra Lia FunctionalExtensionality.
Open Scope R_scope.

(** ** Keys *)
Lemma argument_some N s k : argument N s = Some k <-> exists i, (i < N)%nat /\ (s = Theta i /\ k = (2 * i)%nat \/ s = Phi i /\ k = (2 * i + 1)%nat).
Proof.
  unfold argument. split.
  - destruct s as [i|i| | | | | | |i|i]; try discriminate; destruct (Nat.ltb_spec i N); try discriminate; intros E; injection E as <-; exists i; auto.
  - intros (i & Hi & [[-> ->]|[-> ->]]); destruct (Nat.ltb_spec i N); try lia; reflexivity.
Qed.
Lemma argument_angle N s : (exists k, argument N s = Some k) <-> angle_of N s.
Proof.
  split.
  - intros (k & E). apply argument_some in E. destruct E as (i & Hi & [[-> _]|[-> _]]); exists i; auto.
  - intros (i & Hi & [-> | ->]); [exists (2 * i)%nat|exists (2 * i + 1)%nat]; apply argument_some; exists i; auto.
Qed.
Lemma argument_inj N s s' k : argument N s = Some k -> argument N s' = Some k -> s = s'.
Proof. intros A B. apply argument_some in A, B. destruct A as (i & _ & A), B as (j & _ & B). destruct A as [[-> A]|[-> A]], B as [[-> B]|[-> B]]; f_equal; lia. Qed.
Lemma key_eqb_eq a b : key_eqb a b = true <-> a = b.
Proof.
  destruct a as [[x y]|], b as [[u v]|]; cbn; try (split; congruence). rewrite andb_true_iff, !Nat.eqb_eq. split; [intros [-> ->]; reflexivity|intros E; injection E; auto].
Qed.
Lemma org_none N p : org_diff N (fst p) (snd p) = None <-> outside N p.
Proof.
  unfold outside, org_diff. rewrite <- !argument_angle. destruct (argument N (fst p)) as [a|], (argument N (snd p)) as [b|]; split; try discriminate; try reflexivity.
  - intros H. exfalso. apply H. split; eauto.
  - intros _ [_ [k K]]. discriminate.
  - intros _ [[k K] _]. discriminate.
  - intros _ [[k K] _]. discriminate.
Qed.
Lemma org_some N a b q : angle_of N a -> angle_of N b -> org_diff N (fst q) (snd q) = org_diff N a b -> q = (a, b) \/ q = (b, a).
Proof.
  intros A B. apply argument_angle in A, B. destruct A as [i A], B as [j B]. destruct q as [u v]. cbn [fst snd]. unfold org_diff. rewrite A, B. destruct (argument N u) as [k|] eqn:U; [|discriminate]. destruct (argument N v) as [l|] eqn:V; [|discriminate].
  intros E. injection E as E1 E2. destruct (Nat.eq_dec k i) as [->|D].
  - left. assert (l = j) by lia. subst l. rewrite (argument_inj _ _ _ _ U A), (argument_inj _ _ _ _ V B). reflexivity.
  - right. assert (k = j) by lia. assert (l = i) by lia. subst k l. rewrite (argument_inj _ _ _ _ U B), (argument_inj _ _ _ _ V A). reflexivity.
Qed.
Lemma org_swap N a b : org_diff N a b = org_diff N b a.
Proof. unfold org_diff. destruct (argument N a), (argument N b); try reflexivity. rewrite Nat.min_comm, Nat.max_comm. reflexivity. Qed.

(** ** The loops *)
Lemma pairs_in l p : In p (pairs l) -> In (fst p) l /\ In (snd p) l.
Proof.
  induction l as [|s l IH]; [intros []|]. cbn [pairs]. intros H. apply in_app_or in H. destruct H as [H|H].
  - apply in_map_iff in H. destruct H as (x & <- & H). cbn. auto.
  - destruct (IH H). cbn. auto.
Qed.
Lemma pairs_split : forall l a b, NoDup l -> In a l -> In b l ->
  exists before p after, pairs l = (before ++ p :: after)%list /\ (p = (a, b) \/ p = (b, a)) /\ forall q, In q after -> q <> (a, b) /\ q <> (b, a).
Proof.
  assert (Head : forall s l b, NoDup (s :: l) -> In b (s :: l) -> exists before after, pairs (s :: l) = (before ++ (s, b) :: after)%list /\ forall q, In q after -> q <> (s, b) /\ q <> (b, s)).
  { intros s l b ND Ib. destruct (in_split b (s :: l) Ib) as (l1 & l2 & E). exists (map (pair s) l1), (map (pair s) l2 ++ pairs l)%list. split.
    - cbn [pairs]. rewrite E, map_app. cbn [map]. rewrite <- app_assoc. reflexivity.
    - intros q Hq. apply in_app_or in Hq. inversion ND as [|x xs NI ND' EQ]; subst x xs. destruct Hq as [Hq|Hq].
      + apply in_map_iff in Hq. destruct Hq as (y & <- & Hy). rewrite E in ND. pose proof (NoDup_remove_2 _ _ _ ND) as NB. split; intros X; [injection X as ->; apply NB, in_or_app; right; exact Hy|]. injection X as <- ->. apply NB, in_or_app; right; exact Hy.
      + apply pairs_in in Hq. destruct q as [u v]. cbn in Hq. split; intros X; injection X as -> ->; tauto. }
  induction l as [|s l IH]; intros a b ND Ia Ib; [destruct Ia|]. destruct (symbol_eq_dec a s) as [->|Na].
  - destruct (Head s l b ND Ib) as (b1 & b2 & E & Q). exists b1, (s, b), b2. auto.
  - destruct (symbol_eq_dec b s) as [->|Nb].
    + destruct (Head s l a ND Ia) as (b1 & b2 & E & Q). exists b1, (s, a), b2. split; [exact E|]. split; [auto|]. intros q Hq. destruct (Q q Hq). auto.
    + destruct Ia as [<-|Ia]; [congruence|]. destruct Ib as [<-|Ib]; [congruence|]. inversion ND as [|x xs NI ND' EQ]; subst x xs. destruct (IH a b ND' Ia Ib) as (b1 & p & b2 & E & P & Q).
      exists (map (pair s) (s :: l) ++ b1)%list, p, b2. split; [cbn [pairs]; rewrite E, app_assoc; reflexivity|]. auto.
Qed.
Lemma visits_none zero N E : forall ps,
  match fold_left (visit zero N E) ps (fun _ => None) None with
  | None => forall q, In q ps -> ~ outside N q
  | Some v => stale zero N E ps v \/ fresh zero N E ps /\ zero v = true
  end.
Proof.
  apply (rev_ind (fun ps => match fold_left (visit zero N E) ps (fun _ => None) None with None => forall q, In q ps -> ~ outside N q | Some v => stale zero N E ps v \/ fresh zero N E ps /\ zero v = true end)).
  - intros q [].
  - intros p ps IH. rewrite fold_left_app. cbn [fold_left]. set (d := fold_left (visit zero N E) ps (fun _ => None)) in *. unfold visit, update, subs_table. fold (second E p).
    destruct (key_eqb (org_diff N (fst p) (snd p)) None) eqn:K.
    + apply key_eqb_eq, org_none in K. destruct (zero (second E p)) eqn:Z.
      * destruct (d None) as [v|].
        -- destruct IH as [(b1 & p' & b2 & -> & O & ZF & -> & A)|[F Zv]].
           ++ left. exists b1, p', (b2 ++ [p])%list. split; [rewrite <- app_assoc; reflexivity|]. repeat (split; [assumption || reflexivity|]). intros q Hq. apply in_app_or in Hq. destruct Hq as [Hq|[<-|[]]]; [apply A, Hq|intros _; exact Z].
           ++ right. split; [|exact Zv]. intros q Hq. apply in_app_or in Hq. destruct Hq as [Hq|[<-|[]]]; [apply F, Hq|intros _; exact Z].
        -- right. split; [|exact Z]. intros q Hq OQ. apply in_app_or in Hq. destruct Hq as [Hq|[<-|[]]]; [destruct (IH q Hq OQ)|exact Z].
      * left. exists ps, p, []. repeat (split; [assumption || reflexivity|]). intros q [].
    + assert (NO : ~ outside N p) by (intros O; apply org_none in O; rewrite O in K; discriminate). destruct (d None) as [v|].
      * destruct IH as [(b1 & p' & b2 & -> & O & ZF & -> & A)|[F Zv]].
        -- left. exists b1, p', (b2 ++ [p])%list. split; [rewrite <- app_assoc; reflexivity|]. repeat (split; [assumption || reflexivity|]). intros q Hq OQ. apply in_app_or in Hq. destruct Hq as [Hq|[<-|[]]]; [apply A; assumption|contradiction].
        -- right. split; [|exact Zv]. intros q Hq OQ. apply in_app_or in Hq. destruct Hq as [Hq|[<-|[]]]; [apply F; assumption|contradiction].
      * intros q Hq. apply in_app_or in Hq. destruct Hq as [Hq|[<-|[]]]; [apply IH, Hq|exact NO].
Qed.
Lemma visits_after zero N E k : forall ps d, (forall q, In q ps -> org_diff N (fst q) (snd q) <> k) -> fold_left (visit zero N E) ps d k = d k.
Proof.
  induction ps as [|p ps IH]; intros d H; [reflexivity|]. cbn [fold_left]. rewrite IH by (intros q Hq; apply H; right; exact Hq). unfold visit, update. destruct (key_eqb _ k) eqn:K; [|reflexivity]. apply key_eqb_eq in K. destruct (H p (or_introl eq_refl) K).
Qed.
Lemma table_spec zero N E symbols a b : NoDup symbols -> In a symbols -> In b symbols -> angle_of N a -> angle_of N b ->
  exists before p after e, pairs symbols = (before ++ p :: after)%list /\ (p = (a, b) \/ p = (b, a)) /\
    get_all_second_derivatives zero N E symbols (org_diff N a b) = Some e /\
    (zero (second E p) = false -> e = second E p) /\
    (zero (second E p) = true -> (exists v, stale zero N E before v /\ e = v) \/ fresh zero N E before /\ zero e = true).
Proof.
  intros ND Ia Ib Aa Ab. destruct (pairs_split symbols a b ND Ia Ib) as (before & p & after & E0 & HP & Q). set (d := fold_left (visit zero N E) before (fun _ => None)).
  exists before, p, after, (subs_table zero d (second E p)). split; [exact E0|]. split; [exact HP|]. split.
  - unfold get_all_second_derivatives. rewrite E0, fold_left_app. cbn [fold_left]. fold d. rewrite visits_after.
    + unfold visit, update. replace (org_diff N (fst p) (snd p)) with (org_diff N a b) by (destruct HP as [-> | ->]; [reflexivity|apply org_swap]). rewrite (proj2 (key_eqb_eq _ _) eq_refl). reflexivity.
    + intros q Hq K. destruct (Q q Hq). destruct (org_some N a b q Aa Ab K); contradiction.
  - unfold subs_table. split; [intros ->; reflexivity|]. intros Z. rewrite Z. pose proof (visits_none zero N E before) as V. fold d in V. destruct (d None) as [v|].
    + destruct V as [V|V]; [left; eauto|right; exact V].
    + right. split; [|exact Z]. intros q Hq OQ. destruct (V q Hq OQ).
Qed.

(** ** The matrix of the unknown energy *)
Lemma ang_arg N a x : (a < N)%nat -> (x < 2)%nat -> argument N (ang Theta Phi a x) = Some (2 * a + x)%nat.
Proof. intros Ha Hx. apply argument_some. exists a. split; [exact Ha|]. unfold ang. assert (C : x = 0%nat \/ x = 1%nat) by lia. destruct C as [-> | ->]; cbn [Nat.eqb]; [left|right]; split; try reflexivity; lia. Qed.
Definition imag (a x b y : nat) : sexpr := if Nat.eqb a b then (if Nat.eqb x y then ENum 0 else if Nat.eqb x 1 then func_correction a else ENeg (func_correction a)) else ENum 0.
Lemma func_local {K} (step : K -> fmatrix -> fmatrix) (hit : K -> bool) (val : key * sexpr) r c ks :
  (forall k h, In k ks -> step k h r c = if hit k then val else h r c) ->
  forall h, (exists k, In k ks /\ hit k = true) \/ h r c = val -> fold_left (fun h k => step k h) ks h r c = val.
Proof.
  induction ks as [|k ks IH]; intros Hs h Hx.
  - destruct Hx as [[k [[] _]]|Hx]. exact Hx.
  - cbn [fold_left]. apply IH. intros; apply Hs; right; assumption. rewrite (Hs k h (or_introl eq_refl)). destruct (hit k) eqn:Hk; [right; reflexivity|].
    destruct Hx as [[k' [[<-|Hin] Hk']]|Hx]; [congruence|left; eauto|right; exact Hx].
Qed.
Lemma func_cell N i j h a x b y : (i < N)%nat -> (j < N)%nat -> (x < 2)%nat -> (y < 2)%nat ->
  func_pair N i j h (2 * a + x)%nat (2 * b + y)%nat =
  if (Nat.eqb a i && Nat.eqb b j) || (Nat.eqb a j && Nat.eqb b i) then (Some (Nat.min (2 * a + x) (2 * b + y), Nat.max (2 * a + x) (2 * b + y)), imag a x b y) else h (2 * a + x)%nat (2 * b + y)%nat.
Proof.
  intros Hi Hj Hx Hy. unfold func_pair, fput.
  assert (B : forall a x i, (x < 2)%nat -> Nat.eqb (2 * a + x) (2 * i) = Nat.eqb a i && Nat.eqb x 0).
  { intros. rewrite <- (Nat.add_0_r (2 * i0)). apply eqb_bit; lia. }
  assert (TT : org_diff N (Theta i) (Theta j) = Some (Nat.min (2 * i) (2 * j), Nat.max (2 * i) (2 * j))) by (unfold org_diff; cbn [argument]; destruct (Nat.ltb_spec i N), (Nat.ltb_spec j N); try lia; reflexivity).
  assert (PP : org_diff N (Phi i) (Phi j) = Some (Nat.min (2 * i + 1) (2 * j + 1), Nat.max (2 * i + 1) (2 * j + 1))) by (unfold org_diff; cbn [argument]; destruct (Nat.ltb_spec i N), (Nat.ltb_spec j N); try lia; reflexivity).
  assert (TP : org_diff N (Theta i) (Phi j) = Some (Nat.min (2 * i) (2 * j + 1), Nat.max (2 * i) (2 * j + 1))) by (unfold org_diff; cbn [argument]; destruct (Nat.ltb_spec i N), (Nat.ltb_spec j N); try lia; reflexivity).
  assert (PT : org_diff N (Phi i) (Theta j) = Some (Nat.min (2 * i + 1) (2 * j), Nat.max (2 * i + 1) (2 * j))) by (unfold org_diff; cbn [argument]; destruct (Nat.ltb_spec i N), (Nat.ltb_spec j N); try lia; reflexivity).
  rewrite TT, PP, TP, PT. clear TT PP TP PT. assert (Cx : x = 0%nat \/ x = 1%nat) by lia. assert (Cy : y = 0%nat \/ y = 1%nat) by lia. unfold imag.
  destruct (Nat.eqb_spec i j) as [->|Hij].
  - rewrite !B, !eqb_bit by lia. rewrite orb_diag.
    destruct Cx as [-> | ->]; destruct Cy as [-> | ->]; cbn [Nat.eqb]; rewrite ?andb_true_r, ?andb_false_r; cbn [andb];
      destruct (Nat.eqb_spec a j), (Nat.eqb_spec b j), (Nat.eqb_spec a b); subst; cbn [andb]; try reflexivity; try (exfalso; congruence); (apply f_equal2; [apply f_equal; apply f_equal2; lia|reflexivity]).
  - rewrite !B, !eqb_bit by lia.
    destruct Cx as [-> | ->]; destruct Cy as [-> | ->]; cbn [Nat.eqb]; rewrite ?andb_true_r, ?andb_false_r; cbn [andb];
      destruct (Nat.eqb_spec a i), (Nat.eqb_spec b j), (Nat.eqb_spec a j), (Nat.eqb_spec b i), (Nat.eqb_spec a b); subst;
      cbn [andb orb]; try reflexivity; try (exfalso; congruence); try (exfalso; lia); (apply f_equal2; [apply f_equal; apply f_equal2; lia|reflexivity]).
Qed.
Lemma func_entry N a x b y : (a < N)%nat -> (b < N)%nat -> (x < 2)%nat -> (y < 2)%nat ->
  general_hessian_functional N (2 * a + x)%nat (2 * b + y)%nat = (org_diff N (ang Theta Phi a x) (ang Theta Phi b y), imag a x b y).
Proof.
  intros Ha Hb Hx Hy. unfold general_hessian_functional. rewrite (fold_nested (fun i j h => func_pair N i j h)). unfold org_diff. rewrite !ang_arg by assumption.
  apply (func_local (fun p h => func_pair N (fst p) (snd p) h) (fun p => (Nat.eqb a (fst p) && Nat.eqb b (snd p)) || (Nat.eqb a (snd p) && Nat.eqb b (fst p)))).
  - intros [i j] h I. apply in_flat_map in I. destruct I as (i' & I1 & I2). apply in_map_iff in I2. destruct I2 as (j' & E & I2). injection E as -> ->. apply in_seq in I1, I2. cbn [fst snd]. apply func_cell; lia.
  - left. destruct (Nat.le_gt_cases a b) as [Hab|Hab].
    + exists (a, b). cbn [fst snd]. rewrite !Nat.eqb_refl. split; [|reflexivity]. apply in_flat_map. exists a. split; [apply in_seq; lia|]. apply in_map, in_seq. lia.
    + exists (b, a). cbn [fst snd]. rewrite !Nat.eqb_refl, orb_true_r. split; [|reflexivity]. apply in_flat_map. exists b. split; [apply in_seq; lia|]. apply in_map, in_seq. lia.
Qed.
(** ** Derivatives of the energy with a symbolic field *)
Lemma partial2_rel (Q : (symbol -> R) -> (symbol -> R) -> Prop) f f' a b rho rho' x y :
  (forall r r', Q r r' -> f r = f' r') -> (forall r r' t, Q r r' -> Q (upd r a t) (upd r' a t)) -> (forall r r' t, Q r r' -> Q (upd r b t) (upd r' b t)) ->
  (forall r r', Q r r' -> r a = r' a /\ r b = r' b) -> Q rho rho' -> partial2 f rho a b x -> partial2 f' rho' a b y -> x = y.
Proof.
  intros HF Ua Ub S HQ (g & G & P) (g' & G' & P').
  assert (GG : forall r r', Q r r' -> g r = g' r').
  { intros r r' K. pose proof (G r) as A. pose proof (G' r') as B. unfold partial in A, B. rewrite <- (proj1 (S r r' K)) in B. replace (fun t => f' (upd r' a t)) with (fun t => f (upd r a t)) in B by (extensionality t; apply HF, Ua, K). exact (uniqueness_limite _ _ _ _ A B). }
  unfold partial in P, P'. rewrite <- (proj2 (S rho rho' HQ)) in P'. replace (fun t => g' (upd rho' b t)) with (fun t => g (upd rho b t)) in P' by (extensionality t; apply GG, Ub, HQ). exact (uniqueness_limite _ _ _ _ P P').
Qed.
Definition agrees (h : cvec) (r r' : symbol -> R) : Prop := in_field h r /\ forall i, r (Theta i) = r' (Theta i) /\ r (Phi i) = r' (Phi i).
Lemma energy_agrees s h r r' : agrees h r r' -> field_energy s r = system_energy s h r'.
Proof.
  intros [F A]. unfold field_energy. rewrite F. assert (D : forall l, direction l r = direction l r') by (intros l; unfold direction; rewrite (proj1 (A _)), (proj2 (A _)); reflexivity).
  unfold system_energy. cbv zeta. f_equal; apply Sigma_eq; intros i _; rewrite !D; reflexivity.
Qed.
Lemma agrees_upd N h r r' a t : angle_of N a -> agrees h r r' -> agrees h (upd r a t) (upd r' a t).
Proof.
  intros (i & _ & [-> | ->]) [F A]; (split; [unfold in_field, upd in *; repeat (destruct symbol_eq_dec; [discriminate|]); exact F|]); intros j; unfold upd; split; destruct symbol_eq_dec; try reflexivity; apply A.
Qed.
Lemma eval_substitute f e rho : eval rho (substitute f e) = eval (fun s => eval rho (f s)) e.
Proof. induction e; cbn; congruence. Qed.
Lemma find_numbered s i : numbered s -> (i < length (sv_layers s))%nat -> last_layer i (sv_layers s) = Some (the_layer s i).
Proof.
  intros HN Hi. unfold last_layer. destruct (find (fun l => Nat.eqb (sb_id l) i) (rev (sv_layers s))) as [l|] eqn:F.
  - apply find_some in F. destruct F as [I E]. apply Nat.eqb_eq in E. apply in_rev in I. destruct (In_nth _ _ (LayerSB 0 0 (VO 0 0 0) 0 0 None (VO 0 0 0) None) I) as (k & Hk & <-). change (nth k (sv_layers s) _) with (the_layer s k) in E |- *. rewrite (HN k Hk) in E. subst k. reflexivity.
  - exfalso. pose proof (find_none _ _ F (the_layer s i)) as X. cbv beta in X. rewrite (HN i Hi), Nat.eqb_refl in X. discriminate X. apply in_rev. rewrite rev_involutive. unfold the_layer. apply nth_In. exact Hi.
Qed.
(** ** The substituted matrix is the Smit-Beljers matrix *)
Section Matrix.
Context (zero : sexpr -> bool) (s : solver) (symbols : list symbol) (SO : sound zero) (NU : numbered s) (TR : traversal s symbols) (LV : all_lively s).
Notation N := (length (sv_layers s)).
Context (E : sexpr) (HE : create_energy s (Some field_syms) false = Ok E).
Lemma E_whole : whole E.
Proof. apply (energy_whole s (Some field_syms) false E); [|exact HE]. intros h Eh. injection Eh as <-. cbn. repeat split; exact I. Qed.
Lemma E_value : (fun r => eval r E) = field_energy s.
Proof.
  extensionality r. destruct (energy_eval s _ false E HE) as (h & [Hh|[Hh _]] & V); [|discriminate]. injection Hh as <-. rewrite V. reflexivity.
Qed.
Lemma alive a b : angle_of N a -> angle_of N b -> zero (diff (diff E a) b) = false.
Proof.
  intros A B. destruct (zero (diff (diff E a) b)) eqn:Z; [|reflexivity]. exfalso. destruct (LV a b A B) as (rho & x & P & X). apply X. rewrite <- E_value in P. rewrite (partial2_det _ _ _ _ _ _ P (diff_partial2 E rho a b E_whole)). apply SO, Z.
Qed.
Lemma angle_is a x : (a < N)%nat -> (x < 2)%nat -> angle_of N (ang Theta Phi a x).
Proof. intros Ha Hx. apply argument_angle. eexists. apply ang_arg; assumption. Qed.
Lemma matrix_entry a x b y : (a < N)%nat -> (b < N)%nat -> (x < 2)%nat -> (y < 2)%nat ->
  exists e, analytical_matrix zero s symbols (2 * a + x)%nat (2 * b + y)%nat = Ok (substitute (ms_sub (sv_layers s)) e, substitute (ms_sub (sv_layers s)) (imag a x b y)) /\
  forall rho, partial2 (field_energy s) rho (ang Theta Phi a x) (ang Theta Phi b y) (eval rho e).
Proof.
  intros Ha Hb Hx Hy. destruct TR as [ND TA]. pose proof (angle_is a x Ha Hx) as AA. pose proof (angle_is b y Hb Hy) as AB.
  destruct (table_spec zero N E symbols _ _ ND (TA _ AA) (TA _ AB) AA AB) as (bf & p & af & e & _ & HP & G & F & _).
  assert (Ep : e = second E p) by (apply F; destruct HP as [-> | ->]; apply alive; assumption). exists e. split.
  - unfold analytical_matrix. rewrite HE. cbn [rbind]. rewrite func_entry by assumption. rewrite G. reflexivity.
  - intros rho. rewrite Ep, <- E_value. destruct HP as [-> | ->]; unfold second; cbn [fst snd]; [|rewrite diff_swap by apply whole_defined, E_whole]; apply diff_partial2, E_whole.
Qed.
Lemma imag_value a x b y rho w : (a < N)%nat ->
  eval (upd rho Omega w) (substitute (ms_sub (sv_layers s)) (imag a x b y)) =
  if Nat.eqb a b then (if Nat.eqb x y then 0 else (if Nat.eqb x 1 then 1 else -1) * (w * sb_Ms (the_layer s a) * sin (rho (Theta a)) * sb_thickness (the_layer s a))) else 0.
Proof.
  intros Ha. unfold imag. destruct (Nat.eqb a b); [|reflexivity]. destruct (Nat.eqb x y); [reflexivity|].
  assert (V : eval (upd rho Omega w) (substitute (ms_sub (sv_layers s)) (func_correction a)) = w * sb_Ms (the_layer s a) * sin (rho (Theta a)) * sb_thickness (the_layer s a)).
  { unfold func_correction. cbn [substitute ms_sub]. rewrite (find_numbered s a NU Ha). cbn [eval]. unfold upd. destruct (symbol_eq_dec Omega Omega); [|congruence]. destruct (symbol_eq_dec (Theta a) Omega); [discriminate|]. reflexivity. }
  destruct (Nat.eqb x 1); [rewrite V; ring|]. unfold ENeg. cbn [substitute eval]. rewrite V. ring.
Qed.
Lemma ms_agrees h rho w w' : in_field h rho -> agrees h (fun u => eval (upd rho Omega w) (ms_sub (sv_layers s) u)) (upd rho Omega w').
Proof.
  intros F. split.
  - unfold in_field in *. cbn [ms_sub eval]. unfold upd. repeat (destruct symbol_eq_dec; [discriminate|]). exact F.
  - intros i. cbn [ms_sub eval]. unfold upd. repeat (destruct symbol_eq_dec; [discriminate|]). split; reflexivity.
Qed.
Lemma matrix_same a x b y H hh : (a < N)%nat -> (b < N)%nat -> (x < 2)%nat -> (y < 2)%nat -> energy_hessian (set_H H s) = Ok hh ->
  exists e z, analytical_matrix zero s symbols (2 * a + x)%nat (2 * b + y)%nat = Ok (e, z) /\
  forall rho w, in_field (get_cartesian H) rho ->
    eval (upd rho Omega w) e = eval (upd rho Omega (w * gamma)) (fst (hh (2 * a + x)%nat (2 * b + y)%nat)) /\
    eval (upd rho Omega w) z = eval (upd rho Omega (w * gamma)) (snd (hh (2 * a + x)%nat (2 * b + y)%nat)).
Proof.
  intros Ha Hb Hx Hy Hh. destruct (matrix_entry a x b y Ha Hb Hx Hy) as (e & ME & PE). eexists. eexists. split; [exact ME|]. intros rho w HF.
  pose proof Hh as Hh'. unfold energy_hessian in Hh'. apply P_Resist.rbind_iff in Hh'. destruct Hh' as (E2 & HE2 & X). injection X as <-.
  pose proof (energy_none_whole _ false E2 HE2) as W2. pose proof (energy_none (set_H H s) false E2 H eq_refl HE2) as V2.
  destruct (hessian_cell (fun i => sb_theta (the_layer (set_H H s) i)) (fun i => sb_phi (the_layer (set_H H s) i)) (fun i => sb_correction (the_layer (set_H H s) i)) E2 (length (sv_layers (set_H H s))) a x b y (fun r => whole_defined _ r W2) Ha Hb Hx Hy) as [C1 C2].
  split.
  - rewrite C1, eval_substitute.
    assert (AN : forall k u, (k < N)%nat -> ang (fun i => sb_theta (the_layer (set_H H s) i)) (fun i => sb_phi (the_layer (set_H H s) i)) k u = ang Theta Phi k u).
    { intros k u Hk. unfold ang, sb_theta, sb_phi. change (the_layer (set_H H s) k) with (the_layer s k). rewrite (NU k Hk). reflexivity. }
    rewrite !AN by assumption. pose proof (angle_is a x Ha Hx) as AA. pose proof (angle_is b y Hb Hy) as AB.
    apply (partial2_rel (agrees (get_cartesian H)) (field_energy s) (fun r => eval r E2) (ang Theta Phi a x) (ang Theta Phi b y) (fun u => eval (upd rho Omega w) (ms_sub (sv_layers s) u)) (upd rho Omega (w * gamma))).
    + intros r r' Q. rewrite V2. apply (energy_agrees s _ _ _ Q).
    + intros r r' t Q. exact (agrees_upd _ _ _ _ _ t AA Q).
    + intros r r' t Q. exact (agrees_upd _ _ _ _ _ t AB Q).
    + intros r r' [_ Q]. split; [destruct AA as (i & _ & [-> | ->])|destruct AB as (i & _ & [-> | ->])]; apply Q.
    + apply ms_agrees, HF.
    + apply PE.
    + apply diff_partial2, W2.
  - change (length (sv_layers (set_H H s))) with (length (sv_layers s)) in C2. rewrite C2, imag_value by assumption. destruct (Nat.eqb_spec a b) as [->|]; [|reflexivity]. destruct (Nat.eqb x y); [reflexivity|].
    assert (V : eval (upd rho Omega (w * gamma)) (sb_correction (the_layer (set_H H s) b)) = w * sb_Ms (the_layer s b) * sin (rho (Theta b)) * sb_thickness (the_layer s b)).
    { unfold sb_correction, EDiv, sb_theta. change (the_layer (set_H H s) b) with (the_layer s b). rewrite (NU b Hb). cbn [eval]. unfold upd. destruct (symbol_eq_dec Omega Omega); [|congruence]. destruct (symbol_eq_dec (Theta b) Omega); [discriminate|]. field. unfold gamma. lra. }
    destruct (Nat.eqb x 1); [rewrite V; ring|]. unfold ENeg. cbn [eval]. rewrite V. ring.
Qed.
End Matrix.
Lemma bits r N : (r < 2 * N)%nat -> exists a x, r = (2 * a + x)%nat /\ (a < N)%nat /\ (x < 2)%nat.
Proof. intros H. exists (r / 2)%nat, (r mod 2)%nat. pose proof (Nat.div_mod_eq r 2). pose proof (Nat.mod_upper_bound r 2). lia. Qed.
Lemma field_energy_ok s : exists E, create_energy s (Some field_syms) false = Ok E.
Proof. apply energy_ok. left. discriminate. Qed.
Lemma matrix_good zero s symbols H hh : sound zero -> numbered s -> traversal s symbols -> all_lively s -> energy_hessian (set_H H s) = Ok hh ->
  exists A : smatrix, forall r c, (r < 2 * length (sv_layers s))%nat -> (c < 2 * length (sv_layers s))%nat -> analytical_matrix zero s symbols r c = Ok (A r c) /\
  forall rho w, in_field (get_cartesian H) rho -> eval (upd rho Omega w) (fst (A r c)) = eval (upd rho Omega (w * gamma)) (fst (hh r c)) /\ eval (upd rho Omega w) (snd (A r c)) = eval (upd rho Omega (w * gamma)) (snd (hh r c)).
Proof.
  intros SO NU TR LV Hh. destruct (field_energy_ok s) as [E HE]. exists (fun r c => match analytical_matrix zero s symbols r c with Ok p => p | Err _ => (ENum 0, ENum 0) end). intros r c Hr Hc.
  destruct (bits r _ Hr) as (a & x & -> & Ha & Hx), (bits c _ Hc) as (b & y & -> & Hb & Hy).
  destruct (matrix_same zero s symbols SO NU TR LV E HE a x b y H hh Ha Hb Hx Hy Hh) as (e & z & -> & V). split; [reflexivity|exact V].
Qed.
Lemma solves_iff zero s symbols H hh rho w v : sound zero -> numbered s -> traversal s symbols -> all_lively s -> energy_hessian (set_H H s) = Ok hh -> in_field (get_cartesian H) rho ->
  (solves zero s symbols rho w v <-> annihilated (2 * length (sv_layers s)) hh (upd rho Omega (w * gamma)) v).
Proof.
  intros SO NU TR LV Hh HF. destruct (matrix_good zero s symbols H hh SO NU TR LV Hh) as (A & HA).
  assert (SUM : forall B : smatrix, (forall r c, (r < 2 * length (sv_layers s))%nat -> (c < 2 * length (sv_layers s))%nat -> analytical_matrix zero s symbols r c = Ok (B r c)) ->
    (annihilated (2 * length (sv_layers s)) B (upd rho Omega w) v <-> annihilated (2 * length (sv_layers s)) hh (upd rho Omega (w * gamma)) v)).
  { intros B HB. unfold annihilated. assert (EQ : forall r, (r < 2 * length (sv_layers s))%nat ->
      csum (2 * length (sv_layers s)) (fun c => times (eval (upd rho Omega w) (fst (B r c)), eval (upd rho Omega w) (snd (B r c))) (v c)) = csum (2 * length (sv_layers s)) (fun c => times (eval (upd rho Omega (w * gamma)) (fst (hh r c)), eval (upd rho Omega (w * gamma)) (snd (hh r c))) (v c))).
    { intros r Hr. rewrite !csum_sigma. f_equal; apply Sigma_eq; intros c Hc; destruct (HA r c Hr Hc) as [X Y]; rewrite (HB r c Hr Hc) in X; injection X as X; rewrite X; destruct (Y rho w HF) as [-> ->]; reflexivity. }
    split; intros K r Hr; [rewrite <- EQ by exact Hr|rewrite EQ by exact Hr]; apply K, Hr. }
  split.
  - intros (B & HB & K). apply (SUM B HB), K.
  - intros K. exists A. split; [intros r c Hr Hc; apply HA; assumption|]. apply SUM; [intros r c Hr Hc; apply HA; assumption|exact K].
Qed.
