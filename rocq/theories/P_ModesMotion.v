(** The matrix of the modes is the linearised motion. *)
From Verif Require Import P_Sym P_PyUtils P_SBMotion P_Modes.
From Coq Require Import Psatz.
Open Scope R_scope.
Open Scope st_scope.

Lemma subs_of_nth syms : forall vals rho c u, NoDup syms -> length vals = length syms -> nth_error syms c = Some u -> subs_of syms vals rho u = nth c vals 0.
Proof.
  induction syms as [|s ss IH]; intros vals rho c u ND L N; [destruct c; discriminate|]. destruct vals as [|v vs]; [discriminate|]. cbn [subs_of]. inversion ND as [|? ? N1 N2]; subst. destruct c as [|c].
  - injection N as ->. rewrite assign_same. reflexivity.
  - cbn in N. rewrite assign_other; [apply (IH vs rho c u N2); [cbn in L; lia|exact N]|]. intros ->. apply N1, (nth_error_In ss c N).
Qed.
Lemma symbols_nodup s : distinct s -> NoDup (llg_symbols s).
Proof.
  unfold distinct, llg_symbols. induction (sv_layers s) as [|l ls IH]; intros D; [constructor|]. cbn [map flat_map app] in *. inversion D as [|? ? D1 D2]; subst.
  assert (F : forall u, In u (flat_map (fun l => [sb_theta l; sb_phi l]) ls) -> exists k, In k (map sb_id ls) /\ (u = Theta k \/ u = Phi k)).
  { intros u U. apply in_flat_map in U. destruct U as (x & X & [<-|[<-|[]]]); (exists (sb_id x); split; [apply in_map, X|auto]). }
  constructor; [|constructor; [|apply IH, D2]].
  - intros [E|U]; [discriminate|]. apply F in U. destruct U as (k & K & [E|E]); [injection E as <-; contradiction|discriminate].
  - intros U. apply F in U. destruct U as (k & K & [E|E]); [discriminate|injection E as <-; contradiction].
Qed.
Lemma numeric_iff rho jac a : numeric rho jac = Ok a <-> (forall row e, In row jac -> In e row -> defined rho e) /\ a = map (map (eval rho)) jac.
Proof.
  unfold numeric. rewrite rmap_iff. revert a. induction jac as [|row jac IH]; intros a.
  - split; [intros F; inversion F; split; [intros ? ? []|reflexivity]|intros [_ ->]; constructor].
  - assert (RW : forall b, rmap (evalf rho) row = Ok b <-> (forall e, In e row -> defined rho e) /\ b = map (eval rho) row).
    { clear. induction row as [|e row IH]; intros b; cbn [rmap].
      - split; [intros E; injection E as <-; split; [intros ? []|reflexivity]|intros [_ ->]; reflexivity].
      - rewrite P_Resist.rbind_iff. split.
        + intros (x & X & E). apply evalf_iff in X. destruct X as [D ->]. apply P_Resist.rbind_iff in E. destruct E as (ys & Y & E). injection E as <-. apply IH in Y. destruct Y as [A ->]. split; [intros z [<-|Z]; auto|reflexivity].
        + intros [A ->]. exists (eval rho e). split; [apply evalf_iff; split; [apply A; left; reflexivity|reflexivity]|]. apply P_Resist.rbind_iff. exists (map (eval rho) row). split; [apply IH; split; [intros; apply A; right; assumption|reflexivity]|reflexivity]. }
    split.
    + intros F. inversion F as [|? ? ? ? F1 F2]; subst. apply RW in F1. destruct F1 as [A ->]. apply IH in F2. destruct F2 as [B ->]. split; [intros r e [<-|R] E; eauto|reflexivity].
    + intros [A ->]. cbn [map]. constructor; [apply RW; split; [intros e E; apply (A row e); [left; reflexivity|exact E]|reflexivity]|]. apply IH. split; [intros r e R E; apply (A r e); [right; exact R|exact E]|reflexivity].
Qed.
Lemma steady_cart v : steady (cart v).
Proof. intros rho. cbn. tauto. Qed.
Lemma linearised eig s eq fs vecs : distinct s -> dynamic_layer_solve eig s eq = Ok (fs, vecs) ->
  let n := (2 * length (sv_layers s))%nat in
  exists H rho F a vals rows, sv_H s = Some H /\ length eq = n /\ placed s eq rho /\ motion s (fun _ => get_cartesian H) false F /\ length a = n /\ (forall row, In row a -> length row = n) /\
  (regular s rho -> forall r c, (r < n)%nat -> (c < n)%nat -> partial (F r) rho (angle s c) (nth c (nth r a []) 0)) /\
  eig a = Ok (vals, rows) /\ fs = map (fun l => snd l / (2 * PI)) (oscillating vals).
Proof.
  intros D E. cbv zeta. apply dynamic_iff in E. destruct E as (H & jac & syms & a & vals & rows & EH & J & L & N & G & E). apply select_iff in E. destruct E as (_ & -> & _). apply numeric_iff in N. destruct N as [DF ->].
  assert (SY : syms = llg_symbols s). { unfold compose_llg_jacobian in J. apply P_Resist.rbind_iff in J. destruct J as (U & _ & J). apply P_Resist.rbind_iff in J. destruct J as (fns & _ & J). injection J as _ <-. reflexivity. }
  destruct (jacobian_spec s _ jac syms (steady_cart _) J) as (L1 & L2 & SN & F & M & RW). subst syms. set (rho := subs_of (llg_symbols s) eq nothing) in *. exists H, rho, F, (map (map (eval rho)) jac), vals, rows.
  split; [exact EH|]. split; [lia|]. split.
  { intros k K. apply subs_of_nth; [apply symbols_nodup, D|exact L|apply SN, K]. }
  split. { assert (EQ : (fun r : symbol -> R => field_at r (cart (get_cartesian H))) = (fun _ => get_cartesian H)) by (apply FunctionalExtensionality.functional_extensionality; intros r; generalize (get_cartesian H); intros [hx hy hz]; reflexivity). rewrite EQ in M. exact M. }
  split; [rewrite map_length; exact L1|]. split.
  { intros row I. apply in_map_iff in I. destruct I as (row' & <- & I). rewrite map_length. apply In_nth_error in I. destruct I as (r & I). assert (RL : (r < length jac)%nat) by (apply nth_error_Some; congruence). destruct (RW r ltac:(lia)) as (row2 & I2 & LL & _). congruence. }
  split; [|split; [exact G|reflexivity]]. intros RG r c Hr Hc. destruct (RW r Hr) as (row & I & LL & P). specialize (P c rho Hc RG).
  assert (X : nth r (map (map (eval rho)) jac) [] = map (eval rho) row) by (apply nth_error_nth, map_nth_error, I). rewrite X. rewrite (nth_indep _ 0 (eval rho (ENum 0))) by (rewrite map_length; lia). rewrite map_nth. exact P.
Qed.
Lemma solvable eig s eq H : sv_H s = Some H -> (forall l, In l (sv_layers s) -> sb_dyn l <> None) -> distinct s -> length eq = (2 * length (sv_layers s))%nat -> (forall rho, placed s eq rho -> regular s rho) ->
  (forall a, exists vals rows, eig a = Ok (vals, rows) /\ length rows = length vals) -> exists fs vecs, dynamic_layer_solve eig s eq = Ok (fs, vecs).
Proof.
  intros EH DY D L RG T. destruct (proj2 (jacobian_ok s (cart (get_cartesian H))) DY) as [[jac syms] J].
  assert (JJ := J). unfold compose_llg_jacobian in JJ. apply P_Resist.rbind_iff in JJ. destruct JJ as (U & HU & JJ). apply P_Resist.rbind_iff in JJ. destruct JJ as (fns & Hf & JJ). injection JJ as Ej <-.
  destruct (solver_motion s _ false U fns (steady_cart _) HU Hf) as [_ DEF]. apply rhs_list_iff in Hf. destruct Hf as [LF _].
  assert (LS := symbols_len s). assert (PL : placed s eq (subs_of (llg_symbols s) eq nothing)). { intros k K. apply subs_of_nth; [apply symbols_nodup, D|lia|apply symbols_nth, K]. }
  destruct (T (map (map (eval (subs_of (llg_symbols s) eq nothing))) jac)) as (vals & rows & G & LR).
  eexists. eexists. apply dynamic_iff. exists H, jac, (llg_symbols s), (map (map (eval (subs_of (llg_symbols s) eq nothing))) jac), vals, rows.
  split; [exact EH|]. split; [exact J|]. split; [lia|]. split; [|split; [exact G|apply select_iff; split; [intros i I _; rewrite LR; exact I|split; reflexivity]]].
  apply numeric_iff. split; [|reflexivity]. intros row e I IE. subst jac. apply in_map_iff in I. destruct I as (f & <- & I). apply in_map_iff in IE. destruct IE as (u & <- & _). apply defined_diff.
  fold (equations fns) in I. apply In_nth_error in I. destruct I as (k & K). assert (KL : (k < length (equations fns))%nat) by (apply nth_error_Some; congruence). rewrite equations_len, LF in KL. specialize (DEF _ (RG _ PL) k KL). unfold equation in DEF. rewrite (nth_error_nth _ _ (ENum 0) K) in DEF || idtac. exact DEF.
Qed.
