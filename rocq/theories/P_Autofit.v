(** Proofs about the fit of the front end. *)
From Verif Require Export S_Autofit P_Fit.
From Verif Require P_PyUtils P_Resist.
From Coq Require Import Lia Lra Classical_Prop.
Open Scope R_scope.
Open Scope st_scope.

Lemma observe_app : forall ps es h, observe h ps es = (h ++ observe [] ps es)%list.
Proof.
  induction ps as [|p ps IH]; intros [|[e|] es] h; cbn; try (rewrite app_nil_r; reflexivity).
  - rewrite IH, (IH es [(p, e)]), app_assoc. reflexivity.
  - apply IH.
Qed.
Lemma round_iff eval : forall ps h, (exists es, rmap eval ps = Ok es /\ observe [] ps es = h) <-> observed eval ps h.
Proof.
  induction ps as [|p ps IH]; intros h; split.
  - intros (es & A & B). cbn in A. inversion A; subst. constructor.
  - intros A. inversion A. exists []. split; reflexivity.
  - intros (es & A & B). cbn in A. destruct (eval p) as [r|x] eqn:Ep; [|discriminate]. cbn in A.
    destruct (rmap eval ps) as [es'|x] eqn:Er; [|discriminate]. cbn in A. inversion A; subst es. destruct r as [e|]; cbn in B.
    + rewrite observe_app in B. cbn in B. subst h. constructor; [exact Ep|]. apply IH. exists es'. split; reflexivity.
    + constructor; [exact Ep|]. apply IH. exists es'. split; [reflexivity|exact B].
  - intros A. inversion A as [|p' e ps' h' E O|p' ps' h' E O]; subst; apply IH in O; destruct O as (es & Er & Eo); cbn; rewrite E; cbn; rewrite Er; cbn.
    + exists (Some e :: es). split; [reflexivity|]. cbn. rewrite observe_app, Eo. reflexivity.
    + exists (None :: es). split; [reflexivity|]. exact Eo.
Qed.

Lemma fold_better : forall l b before, (forall q, In q before -> snd b < snd q) ->
  forall mid, (forall q, In q mid -> snd b <= snd q) -> first_least (before ++ b :: mid ++ l) (fold_left less_error l b).
Proof.
  induction l as [|q l IH]; intros b before Hb mid Hm; cbn.
  - exists before, mid. rewrite app_nil_r. auto.
  - unfold less_error at 2. destruct (Rlt_dec (snd q) (snd b)) as [L|L].
    + replace (before ++ b :: mid ++ q :: l)%list with ((before ++ b :: mid) ++ q :: [] ++ l)%list by (rewrite <- app_assoc; reflexivity).
      apply IH; [|intros r []]. intros r Hr. apply in_app_or in Hr. destruct Hr as [Hr|[Hr|Hr]]; [apply Hb in Hr|subst r|apply Hm in Hr]; lra.
    + replace (before ++ b :: mid ++ q :: l)%list with (before ++ b :: (mid ++ [q]) ++ l)%list by (rewrite <- app_assoc; reflexivity).
      apply IH; [exact Hb|]. intros r Hr. apply in_app_or in Hr. destruct Hr as [Hr|[Hr|[]]]; [auto|subst r; lra].
Qed.
Lemma first_least_unique h a b : first_least h a -> first_least h b -> a = b.
Proof.
  intros (l1 & l2 & E & A1 & A2) (m1 & m2 & F & B1 & B2).
  assert (Ia : In a h) by (rewrite E; apply in_or_app; right; left; reflexivity).
  assert (Ib : In b h) by (rewrite F; apply in_or_app; right; left; reflexivity).
  assert (Eq : snd a = snd b).
  { assert (snd a <= snd b) by (rewrite E in Ib; apply in_app_or in Ib; destruct Ib as [I|[I|I]]; [apply A1 in I; lra|subst; lra|apply A2 in I; lra]).
    assert (snd b <= snd a) by (rewrite F in Ia; apply in_app_or in Ia; destruct Ia as [I|[I|I]]; [apply B1 in I; lra|subst; lra|apply B2 in I; lra]). lra. }
  assert (Len : length l1 = length m1).
  { destruct (lt_eq_lt_dec (length l1) (length m1)) as [[L|L]|L]; [exfalso|exact L|exfalso].
    - assert (I : In a m1). { replace a with (nth (length l1) h a) by (rewrite E, nth_middle; reflexivity). rewrite F, app_nth1 by exact L. apply nth_In. exact L. } apply B1 in I. lra.
    - assert (I : In b l1). { replace b with (nth (length m1) h b) by (rewrite F, nth_middle; reflexivity). rewrite E, app_nth1 by exact L. apply nth_In. exact L. } apply A1 in I. lra. }
  replace a with (nth (length l1) h a) by (rewrite E, nth_middle; reflexivity). rewrite F, Len. apply nth_middle.
Qed.
Lemma best_iff h b : best_x h = Ok b <-> first_least h b.
Proof.
  assert (D : forall p l, first_least (p :: l) (fold_left less_error l p)) by (intros p l; exact (fold_better l p [] (fun q H => match H with end) [] (fun q H => match H with end))).
  destruct h as [|p l]; cbn.
  - split; [discriminate|]. intros (m & n & E & _). destruct m; discriminate.
  - split; intros A; [inversion A; subst; apply D|]. f_equal. apply (first_least_unique (p :: l)); [apply D|exact A].
Qed.
Lemma best_some h : h <> [] -> exists b, best_x h = Ok b.
Proof. destruct h; [contradiction|]. eexists. reflexivity. Qed.
Lemma best_none h : h = [] <-> best_x h = Err (Throw "No data has been observed!").
Proof. destruct h; split; intros A; try reflexivity; discriminate. Qed.

Definition note (total i : nat) (h : list seen) (sh : list (nat * R)) : list (nat * R) :=
  match best_x h with Ok b => sh ++ [((i * 100) / total, snd b)%nat]%list | Err _ => sh end.
Lemma told_iff total i h sh sh' : told total i h sh sh' <-> sh' = note total i h sh.
Proof.
  unfold told, note. destruct (best_x h) as [b|x] eqn:B; split.
  - intros [[E S]|(c & C & S)]; [subst h; discriminate|]. apply best_iff in C. rewrite B in C. inversion C; subst. reflexivity.
  - intros ->. right. exists b. split; [apply best_iff; exact B|reflexivity].
  - intros [[E S]|(c & C & S)]; [exact S|]. apply best_iff in C. rewrite B in C. discriminate.
  - intros ->. left. split; [|reflexivity]. destruct h; [reflexivity|discriminate].
Qed.

Section run.
  Context (suggest : list bounds -> list seen -> nat -> nat -> list pset) (interrupt : nat -> bool).
  Notation loop := (fit_loop suggest interrupt).
  Context (eval : pset -> result (option R)) (cfg : list bounds) (total n : nat).
  Definition one_round (i : nat) (o : list seen * list (nat * R) * bool) : result (list seen * list (nat * R) * bool) :=
    let '(h, sh, stopped) := o in
    if (stopped || interrupt i)%bool then Ok (h, sh, true)
    else errors <-- rmap eval (suggest cfg h i n) ;; let h' := observe h (suggest cfg h i n) errors in Ok (h', note total i h' sh, false).
  Lemma loop_stopped : forall k i h sh, k <> 0%nat -> interrupt i = true -> loop eval cfg total n k i h sh = Ok (h, sh, true).
  Proof. intros [|k] i h sh K I; [contradiction|]. cbn. rewrite I. reflexivity. Qed.
  Lemma loop_unfold k i h sh : loop eval cfg total n (S k) i h sh = if interrupt i then Ok (h, sh, true)
    else errors <-- rmap eval (suggest cfg h i n) ;; loop eval cfg total n k (S i) (observe h (suggest cfg h i n) errors) (note total i (observe h (suggest cfg h i n) errors) sh).
  Proof. reflexivity. Qed.
  Lemma loop_S : forall k i h sh, loop eval cfg total n (S k) i h sh = (o <-- loop eval cfg total n k i h sh ;; one_round (i + k) o).
  Proof.
    induction k as [|k IH]; intros i h sh.
    - cbn. rewrite Nat.add_0_r. destruct (interrupt i); [reflexivity|]. destruct (rmap eval (suggest cfg h i n)); reflexivity.
    - rewrite (loop_unfold (S k)), (loop_unfold k). destruct (interrupt i) eqn:I; [reflexivity|].
      destruct (rmap eval (suggest cfg h i n)) as [es|x]; [|reflexivity]. cbn [rbind]. rewrite IH. replace (S i + k)%nat with (i + S k)%nat by lia. reflexivity.
  Qed.
  Definition ask (h : list seen) (i : nat) : list pset := suggest cfg h i n.
  Lemma loop_iff : forall k h sh, loop eval cfg total n k 1 [] [] = Ok (h, sh, false) <->
    (forall i, (1 <= i <= k)%nat -> interrupt i = false) /\ exists ps, played ask eval total k ps h sh.
  Proof.
    induction k as [|k IH]; intros h sh.
    - split.
      + intros A. cbn in A. inversion A; subst. split; [intros; lia|]. exists []. constructor.
      + intros (_ & ps & A). inversion A; subst. reflexivity.
    - rewrite loop_S. split.
      + intros A. destruct (loop eval cfg total n k 1 [] []) as [[[h1 sh1] st]|x] eqn:L; [|discriminate]. cbn in A.
        destruct st; [discriminate|]. cbn in A. destruct (interrupt (S k)) eqn:I; [discriminate|].
        destruct (rmap eval (suggest cfg h1 (S k) n)) as [es|x] eqn:Er; [|discriminate]. cbn in A. inversion A. subst h sh.
        destruct (proj1 (IH h1 sh1) eq_refl) as (Q & ps & P). split.
        * intros i Hi. destruct (Nat.eq_dec i (S k)) as [->|]; [exact I|apply Q; lia].
        * exists (ps ++ ask h1 (S k))%list. rewrite observe_app. apply (Played_S _ _ _ k ps h1 _ sh1); [exact P| |apply told_iff; reflexivity].
          apply round_iff. exists es. split; [exact Er|reflexivity].
      + intros (Q & ps & P). inversion P as [|i qs h1 h2 sh1 sh2 P1 O T]. subst. apply told_iff in T. subst sh.
        rewrite (proj2 (IH h1 sh1)); [|split; [intros; apply Q; lia|exists qs; exact P1]]. cbn. rewrite Q by lia. apply round_iff in O. destruct O as (es & Er & Eo).
        unfold ask in Er, Eo. rewrite Er. cbn. rewrite observe_app, Eo. reflexivity.
  Qed.
  Lemma loop_interrupted : forall k j h sh ps, (j < k)%nat -> (forall i, (1 <= i <= j)%nat -> interrupt i = false) -> played ask eval total j ps h sh -> interrupt (S j) = true ->
    loop eval cfg total n k 1 [] [] = Ok (h, sh, true).
  Proof.
    induction k as [|k IH]; intros j h sh ps J Q P I; [lia|]. rewrite loop_S. destruct (Nat.eq_dec j k) as [->|].
    - rewrite (proj2 (loop_iff k h sh)); [|split; [exact Q|exists ps; exact P]]. cbn. rewrite I. reflexivity.
    - rewrite (IH j h sh ps); [reflexivity|lia|exact Q|exact P|exact I].
  Qed.
  Lemma played_in : forall k ps h sh, played ask eval total k ps h sh -> (forall p, In p ps -> exists r, eval p = Ok r /\ match r with Some e => In (p, e) h | None => True end) /\
    (forall p e, In (p, e) h -> In p ps /\ eval p = Ok (Some e)).
  Proof.
    assert (O : forall ps h, observed eval ps h -> (forall p, In p ps -> exists r, eval p = Ok r /\ match r with Some e => In (p, e) h | None => True end) /\
      (forall p e, In (p, e) h -> In p ps /\ eval p = Ok (Some e))).
    { induction 1 as [|p e ps h E O [A B]|p ps h E O [A B]].
      - split; [intros p []|intros p e []].
      - split.
        + intros q [<-|Hq]; [exists (Some e); split; [exact E|left; reflexivity]|]. destruct (A q Hq) as (r & Er & R1). exists r. split; [exact Er|]. destruct r; [right; exact R1|exact I].
        + intros q e' [Hq|Hq]; [inversion Hq; subst; split; [left; reflexivity|exact E]|]. destruct (B q e' Hq). split; [right|]; assumption.
      - split.
        + intros q [<-|Hq]; [exists None; split; [exact E|exact I]|]. exact (A q Hq).
        + intros q e' Hq. destruct (B q e' Hq). split; [right|]; assumption. }
    induction 1 as [|i ps h h' sh sh' P [A B] Q T].
    - split; [intros p []|intros p e []].
    - destruct (O _ _ Q) as [A' B']. split.
      + intros p Hp. apply in_app_or in Hp. destruct Hp as [Hp|Hp]; [destruct (A p Hp) as (r & Er & R1)|destruct (A' p Hp) as (r & Er & R1)]; exists r; (split; [exact Er|]); destruct r; auto; apply in_or_app; auto.
      + intros p e Hp. apply in_app_or in Hp. destruct Hp as [Hp|Hp]; [destruct (B p e Hp)|destruct (B' p e Hp)]; split; auto; apply in_or_app; auto.
  Qed.
  Lemma observed_length : forall ps h, observed eval ps h -> (length h <= length ps)%nat.
  Proof. induction 1; cbn; lia. Qed.
  Lemma played_length k ps h sh : (forall h i, length (ask h i) = n) -> played ask eval total k ps h sh -> length ps = (k * n)%nat /\ (length h <= k * n)%nat.
  Proof.
    intros L. induction 1 as [|i ps h h' sh sh' P [A B] Q T]; [split; reflexivity|]. apply observed_length in Q. rewrite L in Q. rewrite !app_length, L. split; lia.
  Qed.
  (** Least errors fall, per cents grow, and the last one shown is the least error of all. *)
  Lemma played_shown k ps h sh : played ask eval total k ps h sh ->
    (forall q, In q sh -> exists i, (1 <= i <= k)%nat /\ fst q = ((i * 100) / total)%nat) /\
    (forall a b, (a <= b < length sh)%nat -> (fst (nth a sh no_progress) <= fst (nth b sh no_progress))%nat /\ snd (nth b sh no_progress) <= snd (nth a sh no_progress)) /\
    (h = [] -> sh = []) /\ (forall b, first_least h b -> exists before, sh = (before ++ [((k * 100) / total, snd b)%nat])%list).
  Proof.
    induction 1 as [|i ps h h' sh sh' P (A & B & C & D) Q T].
    - split; [intros q []|]. split; [intros a b Hab; cbn in Hab; lia|]. split; [reflexivity|]. intros b (m & m' & E & _). destruct m; discriminate.
    - destruct T as [[E S]|(b & F & S)].
      + apply app_eq_nil in E. destruct E as [-> ->]. rewrite (C eq_refl) in S. subst sh'. split; [intros q []|]. split; [intros a b Hab; cbn in Hab; lia|]. split; [reflexivity|]. intros b (m & m' & E & _). destruct m; discriminate.
      + subst sh'. split; [|split; [|split]].
        * intros q Hq. apply in_app_or in Hq. destruct Hq as [Hq|[<-|[]]]; [destruct (A q Hq) as (j & J & E); exists j; split; [lia|exact E]|exists (S i); split; [lia|reflexivity]].
        * intros a c Hac. rewrite app_length in Hac. cbn in Hac. destruct (Nat.eq_dec c (length sh)) as [->|Hc]; [|rewrite !app_nth1 by lia; apply B; lia].
          rewrite (nth_middle sh [] _ no_progress). destruct (Nat.eq_dec a (length sh)) as [->|Ha]; [rewrite (nth_middle sh [] _ no_progress); split; [lia|lra]|].
          rewrite app_nth1 by lia. assert (Ia : In (nth a sh no_progress) sh) by (apply nth_In; lia).
          destruct (A _ Ia) as (j & J & Ej). split; [rewrite Ej; destruct (Nat.eq_dec total 0) as [->|Z0]; [reflexivity|]; apply Nat.div_le_mono; [exact Z0|lia]|].
          destruct h as [|q h]; [rewrite (C eq_refl) in Ha, Hac; cbn in *; lia|].
          destruct (best_some (q :: h)) as (c & Hc); [discriminate|]. apply best_iff in Hc. destruct (D c Hc) as (before & Es).
          assert (L1 : snd (nth (length sh - 1) sh no_progress) <= snd (nth a sh no_progress)) by (apply B; lia).
          assert (L2 : snd (nth (length sh - 1) sh no_progress) = snd c). { rewrite Es, app_length. cbn. replace (length before + 1 - 1)%nat with (length before) by lia. rewrite nth_middle. reflexivity. }
          enough (snd b <= snd c) by (cbn; lra). destruct Hc as (m1 & m2 & Em & _). destruct F as (n1 & n2 & En & F1 & F2).
          assert (Ic : In c (n1 ++ b :: n2)) by (rewrite <- En, Em; apply in_or_app; left; apply in_or_app; right; left; reflexivity).
          apply in_app_or in Ic. destruct Ic as [Ic|[Ic|Ic]]; [apply F1 in Ic; lra|subst; lra|apply F2 in Ic; lra].
        * intros E. rewrite E in F. destruct F as (m & m' & E' & _). destruct m; discriminate.
        * intros c Hc. rewrite (first_least_unique _ _ _ Hc F). exists sh. reflexivity.
  Qed.
End run.

Lemma session_error_iff solve s fixed hvals y p r : session_error solve s fixed hvals y p = Ok r <->
  exists rows, session_rows solve s fixed hvals p = Ok rows /\ compute_sb_mse y (map fst rows) (map snd rows) = Ok r.
Proof. exact (P_Resist.rbind_iff _ _ r). Qed.

Section whole.
  Context (suggest : list bounds -> list seen -> nat -> nat -> list pset) (interrupt : nat -> bool) (solve : solver -> list R -> result (list R * list R)) (s : fit_session) (hvals y : list R).
  Notation proposals cfg := (fun h i => suggest cfg h i (fs_suggestions s)).
  Lemma hebo_unfold : hebo_fit suggest interrupt solve s hvals y = (config <-- get_config (fs_form s) ;; let (cfg, fixed) := (config : list bounds * list (param * R)) in
    out <-- fit_loop suggest interrupt (session_error solve s fixed hvals y) cfg (fs_iters s) (fs_suggestions s) (fs_iters s) 1 [] [] ;;
    let '(h, shown, stopped) := (out : list seen * list (nat * R) * bool) in
    if (stopped || interrupt (S (fs_iters s)))%bool then Err (Throw "local variable 'simulated_data' referenced before assignment")
    else b <-- best_x h ;; match session_rows solve s fixed hvals (fst b) with Ok rows => Ok (h, Some rows, shown) | Err _ => Ok (h, None, shown) end).
  Proof. reflexivity. Qed.
  Lemma fit_iff h sim sh : hebo_fit suggest interrupt solve s hvals y = Ok (h, sim, sh) <->
    (forall i, (1 <= i <= S (fs_iters s))%nat -> interrupt i = false) /\
    exists cfg fixed ps x e rows, get_config (fs_form s) = Ok (cfg, fixed) /\ played (proposals cfg) (session_error solve s fixed hvals y) (fs_iters s) (fs_iters s) ps h sh /\
      first_least h (x, e) /\ session_rows solve s fixed hvals x = Ok rows /\ sim = Some rows.
  Proof.
    rewrite hebo_unfold. split.
    - intros A. destruct (get_config (fs_form s)) as [[cfg fixed]|m] eqn:C; [|discriminate]. cbn [rbind] in A.
      destruct (fit_loop _ _ _ _ _ _ _ _ _ _) as [[[h1 sh1] st]|m] eqn:L; [|discriminate]. cbn [rbind] in A.
      destruct st; [discriminate|]. cbn [orb] in A. destruct (interrupt (S (fs_iters s))) eqn:I; [discriminate|].
      destruct (best_x h1) as [[x e]|m] eqn:B; [|discriminate]. cbn [rbind] in A. apply loop_iff in L. destruct L as (Q & ps & P). apply best_iff in B.
      assert (In (x, e) h1) by (destruct B as (m1 & m2 & E & _); rewrite E; apply in_or_app; right; left; reflexivity).
      destruct (proj2 (played_in _ _ _ _ _ _ _ _ _ P) x e H) as (_ & E). apply session_error_iff in E. destruct E as (rows & E & _). cbn [fst] in A. rewrite E in A. inversion A. subst.
      split; [intros i Hi; destruct (Nat.eq_dec i (S (fs_iters s))) as [->|]; [exact I|apply Q; lia]|].
      exists cfg, fixed, ps, x, e, rows. auto 6.
    - intros (Q & cfg & fixed & ps & x & e & rows & C & P & F & E & S). rewrite C. cbn [rbind].
      rewrite (proj2 (loop_iff suggest interrupt (session_error solve s fixed hvals y) cfg (fs_iters s) (fs_suggestions s) (fs_iters s) h sh)); [|split; [intros i Hi; apply Q; lia|exists ps; exact P]].
      cbn [rbind orb]. rewrite Q by lia. rewrite (proj2 (best_iff h (x, e)) F). cbn [rbind fst]. rewrite E, S. reflexivity.
  Qed.
  Lemma fit_nothing cfg fixed ps sh : (forall i, (1 <= i <= S (fs_iters s))%nat -> interrupt i = false) -> get_config (fs_form s) = Ok (cfg, fixed) ->
    played (proposals cfg) (session_error solve s fixed hvals y) (fs_iters s) (fs_iters s) ps [] sh -> hebo_fit suggest interrupt solve s hvals y = Err (Throw "No data has been observed!").
  Proof.
    intros Q C P. rewrite hebo_unfold, C. cbn [rbind].
    rewrite (proj2 (loop_iff suggest interrupt (session_error solve s fixed hvals y) cfg (fs_iters s) (fs_suggestions s) (fs_iters s) [] sh)); [|split; [intros i Hi; apply Q; lia|exists ps; exact P]].
    cbn [rbind orb]. rewrite Q by lia. reflexivity.
  Qed.
  Lemma fit_interrupted cfg fixed j ps h sh : (j <= fs_iters s)%nat -> (forall i, (1 <= i <= j)%nat -> interrupt i = false) -> interrupt (S j) = true -> get_config (fs_form s) = Ok (cfg, fixed) ->
    played (proposals cfg) (session_error solve s fixed hvals y) (fs_iters s) j ps h sh ->
    hebo_fit suggest interrupt solve s hvals y = Err (Throw "local variable 'simulated_data' referenced before assignment").
  Proof.
    intros J Q I C P. rewrite hebo_unfold, C. cbn [rbind]. destruct (Nat.eq_dec j (fs_iters s)) as [->|].
    - rewrite (proj2 (loop_iff suggest interrupt (session_error solve s fixed hvals y) cfg (fs_iters s) (fs_suggestions s) (fs_iters s) h sh)); [|split; [exact Q|exists ps; exact P]].
      cbn [rbind orb]. rewrite I. reflexivity.
    - rewrite (loop_interrupted suggest interrupt (session_error solve s fixed hvals y) cfg (fs_iters s) (fs_suggestions s) (fs_iters s) j h sh ps); [reflexivity|lia|exact Q|exact P|exact I].
  Qed.
End whole.

Lemma param_eqb_iff a b : param_eqb a b = true <-> a = b.
Proof.
  unfold param_eqb. rewrite Bool.andb_true_iff, String.eqb_eq, Nat.eqb_eq. destruct a as [a1 a2], b as [b1 b2]. cbn. split; [intros [-> ->]; reflexivity|intros E; inversion E; auto].
Qed.
Lemma write_out v k : forall x, ~ In k (map fst x) -> forall w, w k = v -> fold_left write_value x w k = v.
Proof.
  induction x as [|[k' e] x IH]; intros N w W; cbn; [exact W|]. cbn in N. apply IH; [tauto|]. unfold write_value. cbn.
  destruct (param_eqb k k') eqn:E; [apply param_eqb_iff in E; subst; tauto|exact W].
Qed.
Lemma write_in k e : forall x, NoDup (map fst x) -> In (k, e) x -> forall w, fold_left write_value x w k = e.
Proof.
  induction x as [|[k' e'] x IH]; intros N I w; [destruct I|]. cbn in N |- *. inversion N as [|? ? N1 N2]; subst. destruct I as [I|I].
  - inversion I; subst. apply write_out; [exact N1|]. unfold write_value. cbn. rewrite (proj2 (param_eqb_iff k k) eq_refl). reflexivity.
  - apply IH; assumption.
Qed.
Lemma autofit_iff suggest interrupt pyfloat solve s file mse x fields target sim v : autofit suggest interrupt pyfloat solve s file = Ok (Fitted mse x fields target sim v) <->
  exists text rows h sh, file = Some text /\ read_data pyfloat text = Ok rows /\ fit_target rows = Ok (fields, target) /\ hebo_fit suggest interrupt solve s fields target = Ok (h, sim, sh) /\
    first_least h (x, mse) /\ v = fold_left write_value x (fs_values s).
Proof.
  unfold autofit. destruct file as [text|]; split.
  - intros A. destruct (read_data pyfloat text) as [rows|m] eqn:Er; [|discriminate]. cbn [rbind] in A. destruct (fit_target rows) as [[f t]|m] eqn:Et; [|discriminate]. cbn [rbind fst snd] in A.
    destruct (hebo_fit suggest interrupt solve s f t) as [[[h sim'] sh]|m] eqn:Eh; [|discriminate]. cbn [rbind] in A. destruct h as [|q h]; [discriminate|].
    destruct (best_x (q :: h)) as [[x' e]|m] eqn:B; [|discriminate]. cbn [rbind fst snd] in A. inversion A; subst. exists text, rows, (q :: h), sh. apply best_iff in B. repeat split; try assumption; reflexivity.
  - intros (text' & rows & h & sh & E & Er & Et & Eh & F & ->). inversion E; subst text'. rewrite Er. cbn [rbind]. rewrite Et. cbn [rbind fst snd]. rewrite Eh. cbn [rbind].
    apply best_iff in F. destruct h as [|q h]; [discriminate|]. rewrite F. reflexivity.
  - discriminate.
  - intros (text & rows & h & sh & E & _). discriminate.
Qed.
Lemma autofit_failed suggest interrupt pyfloat solve s file : autofit suggest interrupt pyfloat solve s file <> Ok FitFailed.
Proof.
  unfold autofit. destruct file as [text|]; [|discriminate]. destruct (read_data pyfloat text) as [rows|m]; [|discriminate]. cbn [rbind].
  destruct (fit_target rows) as [[f t]|m]; [|discriminate]. cbn [rbind fst snd]. destruct (hebo_fit suggest interrupt solve s f t) as [[[h sim] sh]|m] eqn:Eh; [|discriminate]. cbn [rbind].
  apply fit_iff in Eh. destruct Eh as (_ & cfg & fixed & ps & x & e & rw & _ & _ & F & _). apply best_iff in F. destruct h as [|q h]; [discriminate|]. rewrite F. discriminate.
Qed.
Lemma autofit_error suggest interrupt pyfloat solve s text rows f t m : read_data pyfloat text = Ok rows -> fit_target rows = Ok (f, t) -> hebo_fit suggest interrupt solve s f t = Err m ->
  autofit suggest interrupt pyfloat solve s (Some text) = Err m.
Proof. intros Er Et Eh. unfold autofit. rewrite Er. cbn [rbind]. rewrite Et. cbn [rbind fst snd]. rewrite Eh. reflexivity. Qed.

Lemma fit_best suggest interrupt solve s hvals y h sim sh : hebo_fit suggest interrupt solve s hvals y = Ok (h, sim, sh) ->
  exists cfg fixed ps x e rows, get_config (fs_form s) = Ok (cfg, fixed) /\ played (fun h i => suggest cfg h i (fs_suggestions s)) (session_error solve s fixed hvals y) (fs_iters s) (fs_iters s) ps h sh /\
    first_least h (x, e) /\ In x ps /\ session_rows solve s fixed hvals x = Ok rows /\ sim = Some rows /\ compute_sb_mse y (map fst rows) (map snd rows) = Ok (Some e) /\
    forall p, In p ps -> exists r, session_error solve s fixed hvals y p = Ok r /\ match r with Some e' => e <= e' | None => True end.
Proof.
  intros A. apply fit_iff in A. destruct A as (_ & cfg & fixed & ps & x & e & rows & C & P & F & E & S). exists cfg, fixed, ps, x, e, rows.
  destruct (played_in suggest _ cfg _ _ _ _ _ _ P) as [I1 I2].
  assert (In (x, e) h) by (destruct F as (m1 & m2 & Em & _); rewrite Em; apply in_or_app; right; left; reflexivity).
  destruct (I2 x e H) as (J & K). apply session_error_iff in K. destruct K as (rows' & K & M). rewrite E in K. inversion K; subst rows'.
  repeat (split; [assumption|]). intros p Hp. destruct (I1 p Hp) as (r & Er & Q). exists r. split; [exact Er|]. destruct r as [e'|]; [|exact I].
  destruct F as (m1 & m2 & Em & F1 & F2). rewrite Em in Q. apply in_app_or in Q. destruct Q as [Q|[Q|Q]]; [apply F1 in Q; cbn in Q; lra|inversion Q; lra|apply F2 in Q; exact Q].
Qed.

(** An example: one layer whose Ms is searched while K is held; the made-up solver answers with Ms as the frequency. *)
Definition fit_example : fit_session := FitSession swapped 1 2 (fun _ => 2) (fun _ => "z"%string) "x" (fun _ => 5).
Definition fit_example_solve (s : solver) (p : list R) : result (list R * list R) := Ok (p, [match sv_layers s with l :: _ => sb_Ms l * mu0 | [] => 0 end]).
Definition fit_example_ms (m : R) : pset := [(("Ms"%string, 0%nat), m)].
Definition fit_example_suggest (c : list bounds) (h : list seen) (i n : nat) : list pset := [fit_example_ms 2; fit_example_ms 1].
Definition fit_example_fixed : list (param * R) := [(("K"%string, 0%nat), 2)].
Lemma fit_example_rows m : session_rows fit_example_solve fit_example fit_example_fixed [1000; 2000] (fit_example_ms m) = Ok (sweep_rows [(1000, [m]); (2000, [m])]).
Proof.
  assert (L : exists l, fit_layer 1 0 2 "z" 2 m = Ok (l, [deg2rad 0; deg2rad 0]) /\ sb_id l = 0%nat /\ sb_Ms l = m / mu0).
  { eexists. split; [apply layer_iff; split; [lia|]; exists 0, 0; split; [reflexivity|]; split; [reflexivity|]; exists (2 * 1000), 1; split; [left; auto|reflexivity]|]. split; reflexivity. }
  destruct L as (l & L & Il & Ml). unfold session_rows. cbn [fs_form fit_example ff_N swapped seq map fs_thickness fs_axis fs_H_axis].
  apply (wrapper_iff _ _ _ _ _ _ _ _ (l, [])). exists [], [2], [m], [(l, [deg2rad 0; deg2rad 0])], 90, 0. split; [reflexivity|]. split; [reflexivity|]. split.
  - intros [|i] Hi; [|lia]. cbn. split; [lia|]. split; [lia|]. exact L.
  - split; [reflexivity|]. apply sweep_iff. exists [([deg2rad 0; deg2rad 0], [m]); ([deg2rad 0; deg2rad 0], [m])]. split; [reflexivity|]. split; [intros _; split; [reflexivity|]; cbn; rewrite Il; constructor; constructor|].
    split; [|reflexivity]. intros k Hk. assert (Em : sb_Ms l * mu0 = m) by (rewrite Ml; unfold mu0; field).
    destruct k as [|[|k]]; [| |cbn in Hk; lia]; unfold fit_example_solve, field_solver; cbn [sv_layers map fst nth sweep_start]; rewrite Em; reflexivity.
Qed.
Lemma fit_example_error m : session_error fit_example_solve fit_example fit_example_fixed [1000; 2000] [1 * 10 ^ 9; 1 * 10 ^ 9] (fit_example_ms m) = Ok (Some (2 * (1 - m) ^ 2)).
Proof.
  apply session_error_iff. exists (sweep_rows [(1000, [m]); (2000, [m])]). split; [apply fit_example_rows|].
  apply mse_sweep; [intros p [<-|[<-|[]]]; discriminate|intros [|i] Hi; cbn in *; [lra|lia]|reflexivity|]. exists [(1 - m) ^ 2; (1 - m) ^ 2]. split; [|cbn; ring].
  assert (Q : nearest_square (1 * 10 ^ 9 / 10 ^ 9) [m] ((1 - m) ^ 2)).
  { replace (1 * 10 ^ 9 / 10 ^ 9) with 1 by field. split; [exists m; split; [left; reflexivity|reflexivity]|]. intros f [<-|[]]. lra. }
  cbn [map snd combine fst]. constructor; [exact Q|]. constructor; [exact Q|constructor].
Qed.
Definition fit_example_seen : list seen := [(fit_example_ms 2, 2 * (1 - 2) ^ 2); (fit_example_ms 1, 2 * (1 - 1) ^ 2)].
Lemma fit_example_least : first_least fit_example_seen (fit_example_ms 1, 2 * (1 - 1) ^ 2).
Proof. exists [(fit_example_ms 2, 2 * (1 - 2) ^ 2)], []. split; [reflexivity|]. split; [intros q [<-|[]]; cbn; lra|intros q []]. Qed.
Lemma fit_example_fit : hebo_fit fit_example_suggest (fun _ => false) fit_example_solve fit_example [1000; 2000] [1 * 10 ^ 9; 1 * 10 ^ 9] =
  Ok (fit_example_seen, Some (sweep_rows [(1000, [1]); (2000, [1])]), [(100%nat, 2 * (1 - 1) ^ 2)]).
Proof.
  apply fit_iff. split; [reflexivity|]. exists [Bounds ("Ms"%string, 0%nat) 2 1], fit_example_fixed, [fit_example_ms 2; fit_example_ms 1], (fit_example_ms 1), (2 * (1 - 1) ^ 2), (sweep_rows [(1000, [1]); (2000, [1])]).
  split; [exact swapped_wrong|]. split.
  - change (fs_iters fit_example) with 1%nat.
    refine (Played_S (fun h i => fit_example_suggest [Bounds ("Ms"%string, 0%nat) 2 1] h i (fs_suggestions fit_example)) _ 1 0 [] [] fit_example_seen [] _ (Played_0 _ _ _) _ _).
    + apply Observed_finite; [apply fit_example_error|]. apply Observed_finite; [apply fit_example_error|constructor].
    + right. exists (fit_example_ms 1, 2 * (1 - 1) ^ 2). split; [exact fit_example_least|reflexivity].
  - split; [exact fit_example_least|]. split; [apply fit_example_rows|reflexivity].
Qed.
