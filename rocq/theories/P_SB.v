(** Proofs about the Smit-Beljers solver: energy and hessian. *)
From Verif Require Export S_SB.
From Verif Require Import P_Sym P_Resist P_Vec.
From Coq Require Import Psatz FunctionalExtensionality.
Open Scope R_scope.
Open Scope st_scope.

(** ** Values of vectors of expressions *)
Definition veval (rho : symbol -> R) (v : svec) : cvec := field_at rho v.
Lemma eval_sdot rho a b : eval rho (sdot a b) = Dot (field_at rho a) (field_at rho b).
Proof. reflexivity. Qed.
Lemma eval_cart rho v : field_at rho (cart v) = v.
Proof. destruct v. reflexivity. Qed.
Lemma eval_scross rho a b : field_at rho (scross a b) = Cross (field_at rho a) (field_at rho b).
Proof. unfold scross, field_at, Cross, ESub, ENeg. cbn. f_equal; ring. Qed.
Lemma eval_m rho l : field_at rho (sb_m l) = direction l rho.
Proof. unfold sb_m, field_at, direction, point, sb_theta, sb_phi. cbn. f_equal; ring. Qed.
Lemma eval_mat rho t v : field_at rho (mat_sym t v) = MatVec t (field_at rho v).
Proof. unfold mat_sym. unfold field_at at 1. cbn [sx sy sz]. rewrite !eval_sdot, !eval_cart. reflexivity. Qed.
Lemma eval_dmi rho l : field_at rho (sb_hdmi l) = dmi_field l.
Proof. unfold sb_hdmi, dmi_field. destruct (sb_Hdmi l); [apply eval_cart|reflexivity]. Qed.
Lemma eval_sub rho a b : eval rho (ESub a b) = eval rho a - eval rho b.
Proof. unfold ESub, ENeg. cbn. ring. Qed.
Lemma easy_axis rho l :
  eval rho (sdot (sb_m l) (SV (ENum (cos (vo_phi (sb_Kv l)))) (ENum (sin (vo_phi (sb_Kv l)))) (ENum 0))) = Dot (direction l rho) (point (PI / 2) (vo_phi (sb_Kv l)) 1).
Proof. rewrite eval_sdot, eval_m. unfold point. rewrite sin_PI2, cos_PI2. unfold field_at. cbn [sx sy sz eval]. destruct (direction l rho) as [m1 m2 m3]. unfold Dot. cbn [cx cy cz]. ring. Qed.
Lemma film_eval rho l h : eval rho (no_interaction_symbolic_energy l h) = film_energy l (field_at rho h) (direction l rho).
Proof.
  unfold no_interaction_symbolic_energy, ESq. cbn [eval]. rewrite !easy_axis, !eval_sdot, eval_m, eval_dmi, eval_cart.
  replace (field_at rho (SV (EMul (sx (sb_m l)) (sx (sb_m l))) (EMul (sy (sb_m l)) (sy (sb_m l))) (EMul (sz (sb_m l)) (sz (sb_m l))))) with (CV (square (cx (direction l rho))) (square (cy (direction l rho))) (square (cz (direction l rho)))).
  2:{ rewrite <- (eval_m rho l). reflexivity. }
  change (eval rho (sz (sb_m l))) with (cz (field_at rho (sb_m l))).
  rewrite eval_m. unfold film_energy, square. replace (Dot (direction l rho) ez) with (cz (direction l rho)) by (destruct (direction l rho) as [m1 m2 m3]; unfold Dot, ez; cbn [cz]; ring). field.
Qed.
Lemma Sigma_ext n f g : (forall i, (i < n)%nat -> f i = g i) -> Sigma n f = Sigma n g.
Proof. induction n as [|n IH]; intros H; [reflexivity|]. cbn [Sigma]. rewrite IH, H by (intros; try apply H; lia). reflexivity. Qed.
Lemma fold_sum {A} (step : sexpr -> A -> sexpr) (v : A -> R) rho xs : (forall e a, eval rho (step e a) = eval rho e + v a) ->
  forall d e, eval rho (fold_left step xs e) = eval rho e + Sigma (length xs) (fun i => v (nth i xs d)).
Proof.
  intros Hs d. induction xs as [|x xs IH] using rev_ind; intros e; [cbn; ring|].
  rewrite fold_left_app, app_length, Nat.add_1_r. cbn [fold_left Sigma]. rewrite Hs, IH. rewrite nth_middle.
  rewrite (Sigma_ext _ (fun i => v (nth i (xs ++ [x]) d)) (fun i => v (nth i xs d))). ring. intros i Hi. rewrite app_nth1 by exact Hi. reflexivity.
Qed.
Definition pair_spec (s : solver) rho (i : nat) : R :=
  coupling (nth i (sv_J1 s) 0) (nth i (sv_J2 s) 0) (nth i (sv_ilD s) Zero) (direction (the_layer s i) rho) (direction (the_layer s (S i)) rho) +
  match sv_dipole s with None => 0 | Some ds => dipole_energy (nth i ds null_tensor) (the_layer s i) (the_layer s (S i)) (direction (the_layer s i) rho) (direction (the_layer s (S i)) rho) end.
Lemma pair_eval s rho e i : eval rho (pair_energy s e i) = eval rho e + pair_spec s rho i.
Proof.
  unfold pair_energy, pair_spec, coupling, dipole_energy. fold (the_layer s i). fold (the_layer s (i + 1)). rewrite Nat.add_1_r.
  destruct (sv_dipole s) as [ds|]; unfold ESq; cbn [eval]; rewrite ?eval_sub; cbn [eval]; rewrite !eval_sdot, ?eval_mat, eval_cart, eval_scross, !eval_m; change vnull with Zero; unfold square; field.
Qed.
Lemma energy_eval s H vol E : create_energy s H vol = Ok E -> exists h, (H = Some h \/ H = None /\ exists v, sv_H s = Some v /\ h = cart (get_cartesian v)) /\
  forall rho, eval rho E = system_energy s (field_at rho h) rho.
Proof.
  unfold create_energy. intros HE. apply rbind_iff in HE. destruct HE as [h [Hh HE]]. exists h. split.
  - destruct H as [h'|]; [left; congruence|right]. split; [reflexivity|]. destruct (sv_H s) as [v|]; [|discriminate]. exists v. split; congruence.
  - intros rho. injection HE as <-. unfold system_energy. rewrite (fold_sum _ (pair_spec s rho) rho _ (fun e a => pair_eval s rho e a) 0%nat).
    rewrite (fold_sum _ (fun l => sb_thickness l * film_energy l (field_at rho h) (direction l rho)) rho (sv_layers s)) with (d := LayerSB 0 0 (VO 0 0 0) 0 0 None (VO 0 0 0) None).
    2:{ intros e l. cbn [eval]. rewrite film_eval. ring. }
    rewrite seq_length. cbn [eval]. rewrite (Sigma_ext _ (fun i => pair_spec s rho (nth i (seq 0 (length (sv_layers s) - 1)) 0%nat)) (pair_spec s rho)).
    + unfold pair_spec, the_layer. ring.
    + intros i Hi. rewrite seq_nth by exact Hi. reflexivity.
Qed.
Lemma energy_ok s H vol : (exists E, create_energy s H vol = Ok E) <-> H <> None \/ sv_H s <> None.
Proof.
  unfold create_energy. destruct H as [h|]; cbn.
  - split; [left; discriminate|intros _; eauto].
  - destruct (sv_H s) as [v|]; cbn; split; intros Hx.
    + right; discriminate.
    + eauto.
    + destruct Hx as [E Hx]; discriminate.
    + destruct Hx as [Hx|Hx]; contradiction.
Qed.

(** Expressions without division *)
Lemma whole_svec_dot a b : whole (sx a) -> whole (sy a) -> whole (sz a) -> whole (sx b) -> whole (sy b) -> whole (sz b) -> whole (sdot a b).
Proof. cbn. tauto. Qed.
Lemma whole_m l : whole (sx (sb_m l)) /\ whole (sy (sb_m l)) /\ whole (sz (sb_m l)).
Proof. cbn. tauto. Qed.
Definition whole_v (h : svec) : Prop := whole (sx h) /\ whole (sy h) /\ whole (sz h).
Lemma whole_film l h : whole_v h -> whole (no_interaction_symbolic_energy l h).
Proof. unfold whole_v. destruct h as [a b c]. cbn. unfold sb_hdmi. destruct (sb_Hdmi l); cbn; tauto. Qed.
Lemma whole_pair s e i : whole e -> whole (pair_energy s e i).
Proof. unfold pair_energy. destruct (sv_dipole s); cbn; tauto. Qed.
Lemma fold_whole {A} (step : sexpr -> A -> sexpr) (xs : list A) : (forall e a, whole e -> whole (step e a)) -> forall e, whole e -> whole (fold_left step xs e).
Proof. intros Hs. induction xs as [|x xs IH]; intros e He; [exact He|]. cbn. apply IH, Hs, He. Qed.
Lemma energy_whole s H vol E : (forall h, H = Some h -> whole_v h) -> create_energy s H vol = Ok E -> whole E.
Proof.
  intros Hw HE. unfold create_energy in HE. apply rbind_iff in HE. destruct HE as [h [Hh HE]]. injection HE as <-.
  assert (whole_v h).
  { destruct H as [h'|]. - injection Hh as <-. apply Hw; reflexivity. - destruct (sv_H s); [|discriminate]. injection Hh as <-. cbn; repeat split. }
  apply fold_whole; [intros; apply whole_pair; assumption|]. apply fold_whole; [|exact I]. intros e l He. cbn. split; [exact He|]. split; [apply whole_film; assumption|exact I].
Qed.

(** ** Hessian *)
Lemma eqb_bit a x i u : (x < 2)%nat -> (u < 2)%nat -> Nat.eqb (2 * a + x) (2 * i + u) = Nat.eqb a i && Nat.eqb x u.
Proof.
  intros Hx Hu. destruct (Nat.eqb_spec a i); destruct (Nat.eqb_spec x u); cbn [andb]; [apply Nat.eqb_eq|apply Nat.eqb_neq..]; lia.
Qed.
Definition ang (th ph : nat -> symbol) (a x : nat) : symbol := if Nat.eqb x 0 then th a else ph a.
(** value of the cell with row 2 a + x, column 2 b + y *)
Definition cell (th ph : nat -> symbol) (z : nat -> sexpr) (E : sexpr) (i j a x b y : nat) : sexpr * sexpr :=
  let re := if Nat.eqb x y then diff (diff E (ang th ph i x)) (ang th ph j x)
            else if Nat.eqb a b then diff (diff E (th i)) (ph j)
            else if Nat.eqb a i then diff (diff E (ang th ph i x)) (ang th ph j y) else diff (diff E (ang th ph i y)) (ang th ph j x) in
  (re, if Nat.eqb a b then (if Nat.eqb x y then ENum 0 else if Nat.eqb x 1 then z i else ENeg (z i)) else ENum 0).
Lemma pair_cell th ph z E i j h a x b y : (x < 2)%nat -> (y < 2)%nat ->
  hessian_pair th ph z E i j h (2 * a + x)%nat (2 * b + y)%nat =
  if (Nat.eqb a i && Nat.eqb b j) || (Nat.eqb a j && Nat.eqb b i) then cell th ph z E i j a x b y else h (2 * a + x)%nat (2 * b + y)%nat.
Proof.
  intros Hx Hy. unfold hessian_pair, put.
  assert (B : forall a x i, (x < 2)%nat -> Nat.eqb (2 * a + x) (2 * i) = Nat.eqb a i && Nat.eqb x 0).
  { intros. rewrite <- (Nat.add_0_r (2 * i0)). apply eqb_bit; lia. }
  assert (Cx : x = 0%nat \/ x = 1%nat) by lia. assert (Cy : y = 0%nat \/ y = 1%nat) by lia. unfold cell, ang.
  destruct (Nat.eqb_spec i j) as [->|Hij].
  - rewrite !B, !eqb_bit by lia. rewrite orb_diag.
    destruct Cx as [-> | ->]; destruct Cy as [-> | ->]; cbn [Nat.eqb]; rewrite ?andb_true_r, ?andb_false_r; cbn [andb];
      destruct (Nat.eqb_spec a j), (Nat.eqb_spec b j), (Nat.eqb_spec a b); cbn [andb]; try reflexivity; try (exfalso; congruence).
  - rewrite !B, !eqb_bit by lia.
    destruct Cx as [-> | ->]; destruct Cy as [-> | ->]; cbn [Nat.eqb]; rewrite ?andb_true_r, ?andb_false_r; cbn [andb];
      destruct (Nat.eqb_spec a i), (Nat.eqb_spec b j), (Nat.eqb_spec a j), (Nat.eqb_spec b i), (Nat.eqb_spec a b);
      cbn [andb orb]; try reflexivity; try (exfalso; congruence).
Qed.
Lemma fold_nested {H} (F : nat -> nat -> H -> H) (L : nat -> list nat) (xs : list nat) : forall h,
  fold_left (fun h i => fold_left (fun h j => F i j h) (L i) h) xs h = fold_left (fun h p => F (fst p) (snd p) h) (flat_map (fun i => map (pair i) (L i)) xs) h.
Proof.
  induction xs as [|x xs IH]; intros h; [reflexivity|]. cbn [fold_left flat_map]. rewrite fold_left_app, IH. f_equal.
  generalize h. induction (L x) as [|y ys IHy]; intros g; [reflexivity|]. cbn. apply IHy.
Qed.
Lemma fold_local {K} (step : K -> smatrix -> smatrix) (hit : K -> bool) (val : K -> sexpr * sexpr) (good : sexpr * sexpr -> Prop) r c ks :
  (forall k h, In k ks -> step k h r c = if hit k then val k else h r c) -> (forall k, In k ks -> hit k = true -> good (val k)) ->
  forall h, (exists k, In k ks /\ hit k = true) \/ good (h r c) -> good (fold_left (fun h k => step k h) ks h r c).
Proof.
  induction ks as [|k ks IH]; intros Hs Hg h Hx.
  - destruct Hx as [[k [[] _]]|Hx]. exact Hx.
  - cbn [fold_left]. apply IH. intros; apply Hs; right; assumption. intros; apply Hg; [right|]; assumption.
    rewrite (Hs k h (or_introl eq_refl)). destruct (hit k) eqn:Hk.
    + right. apply Hg; [left; reflexivity|exact Hk].
    + destruct Hx as [[k' [[<-|Hin] Hk']]|Hx]; [congruence|left; eauto|right; exact Hx].
Qed.
Lemma hessian_cell th ph z E N a x b y : (forall rho, defined rho E) -> (a < N)%nat -> (b < N)%nat -> (x < 2)%nat -> (y < 2)%nat ->
  (forall rho, eval rho (fst (hessian_loop th ph z E N (2 * a + x)%nat (2 * b + y)%nat)) = eval rho (diff (diff E (ang th ph a x)) (ang th ph b y))) /\
  snd (hessian_loop th ph z E N (2 * a + x)%nat (2 * b + y)%nat) =
    if Nat.eqb a b then (if Nat.eqb x y then ENum 0 else if Nat.eqb x 1 then z a else ENeg (z a)) else ENum 0.
Proof.
  intros HE Ha Hb Hx Hy. unfold hessian_loop. rewrite fold_nested.
  set (good := fun v : sexpr * sexpr => (forall rho, eval rho (fst v) = eval rho (diff (diff E (ang th ph a x)) (ang th ph b y))) /\
    snd v = if Nat.eqb a b then (if Nat.eqb x y then ENum 0 else if Nat.eqb x 1 then z a else ENeg (z a)) else ENum 0).
  change (good (fold_left (fun h p => hessian_pair th ph z E (fst p) (snd p) h) (flat_map (fun i => map (pair i) (seq i (N - i))) (seq 0 N)) (fun _ _ => real (ENum 0)) (2 * a + x)%nat (2 * b + y)%nat)).
  apply (fold_local (fun p h => hessian_pair th ph z E (fst p) (snd p) h) (fun p => (Nat.eqb a (fst p) && Nat.eqb b (snd p)) || (Nat.eqb a (snd p) && Nat.eqb b (fst p))) (fun p => cell th ph z E (fst p) (snd p) a x b y)).
  - intros [i j] h _. cbn [fst snd]. apply pair_cell; assumption.
  - intros [i j] _. cbn [fst snd]. intros Hit. unfold good, cell. cbn [fst snd].
    assert (Cx : x = 0%nat \/ x = 1%nat) by lia. assert (Cy : y = 0%nat \/ y = 1%nat) by lia.
    destruct (Nat.eqb_spec a i), (Nat.eqb_spec b j), (Nat.eqb_spec a j), (Nat.eqb_spec b i), (Nat.eqb_spec a b); cbn [andb orb] in Hit; try discriminate; try (exfalso; congruence); subst;
      (split; [intros rho|]); destruct Cx as [-> | ->]; destruct Cy as [-> | ->]; unfold ang; cbn [Nat.eqb]; try reflexivity; apply diff_swap, HE.
  - left. destruct (Nat.le_gt_cases a b) as [Hab|Hab].
    + exists (a, b). cbn [fst snd]. rewrite !Nat.eqb_refl. split; [|reflexivity]. apply in_flat_map. exists a. split; [apply in_seq; lia|]. apply in_map, in_seq. lia.
    + exists (b, a). cbn [fst snd]. rewrite !Nat.eqb_refl, orb_true_r. split; [|reflexivity]. apply in_flat_map. exists b. split; [apply in_seq; lia|]. apply in_map, in_seq. lia.
Qed.
Lemma coordinate_bit th ph a x : (x < 2)%nat -> coordinate th ph (2 * a + x) = ang th ph a x.
Proof.
  intros Hx. unfold coordinate, ang. assert (Cx : x = 0%nat \/ x = 1%nat) by lia. destruct Cx as [-> | ->].
  - rewrite Nat.add_0_r. rewrite Nat.div2_double. replace (Nat.even (2 * a)) with true by (symmetry; apply Nat.even_spec; exists a; lia). reflexivity.
  - rewrite Nat.add_1_r. rewrite Nat.div2_succ_double. replace (Nat.even (S (2 * a))) with false. reflexivity. symmetry. rewrite Nat.even_succ. rewrite <- Nat.negb_even. replace (Nat.even (2 * a)) with true by (symmetry; apply Nat.even_spec; exists a; lia). reflexivity.
Qed.
Lemma hessian_good th ph z E N f : (forall rho, defined rho E) -> (forall rho, eval rho E = f rho) -> smit_beljers N th ph (fun i rho => eval rho (z i)) f (hessian_loop th ph z E N).
Proof.
  intros HE Hf r c rho Hr Hc.
  assert (Sp : forall k, (k < 2 * N)%nat -> exists a x, k = (2 * a + x)%nat /\ (x < 2)%nat /\ (a < N)%nat).
  { intros k Hk. exists (k / 2)%nat, (k mod 2)%nat. pose proof (Nat.div_mod_eq k 2). pose proof (Nat.mod_upper_bound k 2). lia. }
  destruct (Sp r Hr) as [a [x [-> [Hx Ha]]]]. destruct (Sp c Hc) as [b [y [-> [Hy Hb]]]].
  destruct (hessian_cell th ph z E N a x b y HE Ha Hb Hx Hy) as [C1 C2].
  rewrite C1, C2, !coordinate_bit by assumption. split; [|split; [|split]].
  - replace f with (fun r => eval r E) by (apply functional_extensionality; exact Hf). exists (fun r => eval r (diff E (ang th ph a x))). split; [intros r; apply diff_partial, HE|apply diff_partial, defined_diff, HE].
  - intros i Hi Hj. replace a with i by lia. replace b with i by lia. replace x with 1%nat by lia. replace y with 0%nat by lia. rewrite Nat.eqb_refl. reflexivity.
  - intros i Hi Hj. replace a with i by lia. replace b with i by lia. replace x with 0%nat by lia. replace y with 1%nat by lia. rewrite Nat.eqb_refl. cbn. ring.
  - intros Hn. destruct (Nat.eqb_spec a b) as [->|]; [|reflexivity]. destruct (Nat.eqb_spec x y) as [->|]; [reflexivity|]. exfalso. destruct (Hn b) as [H1 H2]. 
    assert (Cx : x = 0%nat \/ x = 1%nat) by lia. destruct Cx as [-> | ->]; [apply H2|apply H1]; lia.
Qed.
