(** Symbolic derivatives are derivatives. *)
From Verif Require Export S_Sym.
From Coq Require Import Psatz FunctionalExtensionality.
Open Scope R_scope.

Lemma upd_same rho s : upd rho s (rho s) = rho.
Proof. extensionality u. unfold upd. destruct (symbol_eq_dec u s) as [->|]; reflexivity. Qed.

(** Derivative in a direction, by the rules. *)
Fixpoint slope (rho d : symbol -> R) (e : sexpr) : R :=
  match e with
  | ENum _ => 0
  | ESym s => d s
  | EAdd a b => slope rho d a + slope rho d b
  | EMul a b => slope rho d a * eval rho b + eval rho a * slope rho d b
  | EInv a => - slope rho d a / (eval rho a * eval rho a)
  | ESin a => cos (eval rho a) * slope rho d a
  | ECos a => - sin (eval rho a) * slope rho d a
  end.

Lemma lim_ext f g x l : (forall t, f t = g t) -> derivable_pt_lim f x l -> derivable_pt_lim g x l.
Proof. intros E H. replace g with f; [exact H|]. extensionality t. apply E. Qed.
Lemma lim_eq f x l l' : derivable_pt_lim f x l -> l = l' -> derivable_pt_lim f x l'.
Proof. intros H <-. exact H. Qed.
Lemma lim_comp f g x a b y : g x = y -> derivable_pt_lim g x a -> derivable_pt_lim f y b -> derivable_pt_lim (fun t => f (g t)) x (b * a).
Proof. intros <- H K. exact (derivable_pt_lim_comp g f x a b H K). Qed.

Lemma slope_lim e : forall rho d, defined rho e -> along (fun r => eval r e) rho d (slope rho d e).
Proof.
  unfold along. induction e as [r|s|a IHa b IHb|a IHa b IHb|a IHa|a IHa|a IHa]; intros rho d D; cbn [eval slope defined] in *.
  - apply derivable_pt_lim_const.
  - apply lim_ext with (fun h => (fct_cte (rho s) + mult_real_fct (d s) id)%F h); [intros t; unfold plus_fct, fct_cte, mult_real_fct, id; ring|]. eapply lim_eq; [apply derivable_pt_lim_plus; [apply derivable_pt_lim_const|apply derivable_pt_lim_scal, derivable_pt_lim_id]|ring].
  - apply derivable_pt_lim_plus; [apply IHa|apply IHb]; apply D.
  - eapply lim_eq; [apply derivable_pt_lim_mult; [apply (IHa rho d), D|apply (IHb rho d), D]|]. cbn. replace (fun s => rho s + 0 * d s) with rho by (extensionality s; ring). reflexivity.
  - assert (E0 : (fun s => rho s + 0 * d s) = rho) by (extensionality s; ring).
    apply lim_ext with (div_fct (fct_cte 1) (fun t => eval (fun s => rho s + t * d s) a)); [intros t; unfold div_fct, fct_cte, Rdiv; apply Rmult_1_l|].
    eapply lim_eq; [apply derivable_pt_lim_div; [apply derivable_pt_lim_const|apply (IHa rho d), D|cbv beta; rewrite E0; apply D]|]. cbv beta. rewrite E0. unfold fct_cte, Rsqr. field. apply D.
  - eapply (lim_comp sin (fun h => eval (fun s => rho s + h * d s) a)); [|apply IHa; exact D|apply derivable_pt_lim_sin]. f_equal. extensionality s. ring.
  - eapply (lim_comp cos (fun h => eval (fun s => rho s + h * d s) a)); [|apply IHa; exact D|apply derivable_pt_lim_cos]. f_equal. extensionality s. ring.
Qed.
(** The slope along one symbol is the symbolic derivative. *)
Definition unit_of (s : symbol) : symbol -> R := fun u => if symbol_eq_dec u s then 1 else 0.
Lemma slope_diff e rho s : defined rho e -> slope rho (unit_of s) e = eval rho (diff e s).
Proof.
  induction e as [r|t|a IHa b IHb|a IHa b IHb|a IHa|a IHa|a IHa]; intros D; cbn [slope diff eval defined ENeg ESq] in *.
  - reflexivity.
  - unfold unit_of. destruct (symbol_eq_dec t s); reflexivity.
  - rewrite IHa, IHb by apply D. reflexivity.
  - rewrite IHa, IHb by apply D. reflexivity.
  - rewrite IHa by apply D. unfold ENeg, ESq. cbn [eval]. field. apply D.
  - rewrite IHa by apply D. reflexivity.
  - rewrite IHa by apply D. unfold ENeg. cbn [eval]. ring.
Qed.
Lemma diff_partial e rho s : defined rho e -> partial (fun r => eval r e) rho s (eval rho (diff e s)).
Proof.
  intros D. rewrite <- slope_diff by exact D. unfold partial.
  apply lim_ext with (fun t => (fun h => eval (fun u => rho u + h * unit_of s u) e) ((fun t => t - rho s) t)).
  - intros t. cbv beta. f_equal. extensionality u. unfold upd, unit_of. destruct (symbol_eq_dec u s) as [->|]; ring.
  - eapply lim_eq; [apply (lim_comp (fun h => eval (fun u => rho u + h * unit_of s u) e) (fun t => t - rho s) (rho s) 1 (slope rho (unit_of s) e) 0); [ring| |apply slope_lim; exact D]|ring].
    eapply lim_eq; [apply (derivable_pt_lim_minus id (fct_cte (rho s))); [apply derivable_pt_lim_id|apply derivable_pt_lim_const]|ring].
Qed.
Lemma partial_det f rho s l l' : partial f rho s l -> partial f rho s l' -> l = l'.
Proof. intros H K. exact (uniqueness_limite _ _ _ _ H K). Qed.
Lemma along_det f rho d l l' : along f rho d l -> along f rho d l' -> l = l'.
Proof. intros H K. exact (uniqueness_limite _ _ _ _ H K). Qed.

(** The slope is linear in the direction. *)
Lemma slope_add e rho d d' : slope rho (fun s => d s + d' s) e = slope rho d e + slope rho d' e.
Proof. induction e; cbn [slope]; rewrite ?IHe1, ?IHe2, ?IHe; unfold Rdiv; ring. Qed.
Lemma slope_scal e rho k d : slope rho (fun s => k * d s) e = k * slope rho d e.
Proof. induction e; cbn [slope]; rewrite ?IHe1, ?IHe2, ?IHe; unfold Rdiv; ring. Qed.
Lemma slope_zero e rho : slope rho (fun _ => 0) e = 0.
Proof. induction e; cbn [slope]; rewrite ?IHe1, ?IHe2, ?IHe; unfold Rdiv; ring. Qed.
Fixpoint slope_sum (ss : list symbol) (rho d : symbol -> R) (e : sexpr) : R :=
  match ss with [] => 0 | s :: ss => eval rho (diff e s) * d s + slope_sum ss rho d e end.
Lemma slope_over ss : NoDup ss -> forall e rho d, defined rho e -> (forall s, ~ In s ss -> d s = 0) -> slope rho d e = slope_sum ss rho d e.
Proof.
  induction 1 as [|s ss N ND IH]; intros e rho d D Z; cbn [slope_sum].
  - rewrite <- (slope_zero e rho). f_equal. extensionality s. apply Z. intros [].
  - set (d' := fun u => if symbol_eq_dec u s then 0 else d u).
    replace (slope rho d e) with (slope rho (fun u => d s * unit_of s u + d' u) e).
    + rewrite (slope_add e rho (fun u => d s * unit_of s u) d'), slope_scal, slope_diff by exact D. rewrite (IH e rho d' D).
      * rewrite Rmult_comm. f_equal. clear -N. induction ss as [|u ss IH]; cbn [slope_sum]; [reflexivity|]. rewrite IH by (intros X; apply N; right; exact X). f_equal. unfold d'. destruct (symbol_eq_dec u s) as [->|]; [exfalso; apply N; left; reflexivity|reflexivity].
      * intros u NI. unfold d'. destruct (symbol_eq_dec u s) as [->|NE]; [reflexivity|]. apply Z. intros [X|X]; [symmetry in X; contradiction|contradiction].
    + f_equal. extensionality u. unfold unit_of, d'. destruct (symbol_eq_dec u s) as [->|]; ring.
Qed.

Lemma defined_diff e rho s : defined rho e -> defined rho (diff e s).
Proof.
  induction e as [r|t|a IHa b IHb|a IHa b IHb|a IHa|a IHa|a IHa]; cbn [diff defined]; intros D; unfold ENeg, ESq; cbn [defined eval].
  - exact I.
  - destruct (symbol_eq_dec t s); exact I.
  - split; [apply IHa|apply IHb]; apply D.
  - split; (split; [apply IHa||apply D|apply IHb||apply D]); apply D.
  - destruct D as [D N]. repeat split; auto; try (apply Rmult_integral_contrapositive; split; exact N).
  - split; [exact D|apply IHa; exact D].
  - split; [exact I|]. split; [exact D|apply IHa; exact D].
Qed.
(** The order of two symbolic derivatives does not matter. *)
Lemma diff_swap e rho s u : defined rho e -> eval rho (diff (diff e s) u) = eval rho (diff (diff e u) s).
Proof.
  induction e as [r|t|a IHa b IHb|a IHa b IHb|a IHa|a IHa|a IHa]; cbn [diff defined]; intros D; unfold ENeg, ESq; cbn [diff eval].
  - reflexivity.
  - destruct (symbol_eq_dec t s), (symbol_eq_dec t u); reflexivity.
  - rewrite IHa, IHb by apply D. reflexivity.
  - rewrite IHa, IHb by apply D. ring.
  - rewrite IHa by apply D. unfold ENeg, ESq. cbn [eval]. field. apply D.
  - rewrite IHa by apply D. unfold ENeg. cbn [eval]. ring.
  - rewrite IHa by apply D. ring.
Qed.
(** Expressions without division. *)
Fixpoint whole (e : sexpr) : Prop :=
  match e with ENum _ | ESym _ => True | EAdd a b | EMul a b => whole a /\ whole b | EInv _ => False | ESin a | ECos a => whole a end.
Lemma whole_defined e rho : whole e -> defined rho e.
Proof. induction e; cbn; tauto. Qed.
Lemma diff_partial2 e rho s u : whole e -> partial2 (fun r => eval r e) rho s u (eval rho (diff (diff e s) u)).
Proof.
  intros W. exists (fun r => eval r (diff e s)). split; [intros r; apply diff_partial, whole_defined, W|]. apply diff_partial, defined_diff, whole_defined, W.
Qed.
Lemma partial2_det f rho s u l l' : partial2 f rho s u l -> partial2 f rho s u l' -> l = l'.
Proof.
  intros (g & G & H) (g' & G' & H'). assert (g = g') by (extensionality r; exact (partial_det _ _ _ _ _ (G r) (G' r))). subst g'. exact (partial_det _ _ _ _ _ H H').
Qed.
Lemma finite_iff rho e : finite rho e = true <-> defined rho e.
Proof.
  induction e as [r|t|a IHa b IHb|a IHa b IHb|a IHa|a IHa|a IHa]; cbn [finite defined]; try tauto; rewrite ?Bool.andb_true_iff; try tauto.
  rewrite IHa. destruct (Req_EM_T (eval rho a) 0) as [E|E]; [|tauto]. split; [intros [_ X]; discriminate|intros [_ X]; contradiction].
Qed.
Lemma evalf_iff rho e x : evalf rho e = Ok x <-> defined rho e /\ x = eval rho e.
Proof.
  unfold evalf. rewrite <- finite_iff. destruct (finite rho e); split.
  - intros H. injection H as <-. auto.
  - intros [_ ->]. reflexivity.
  - discriminate.
  - intros [X _]. discriminate.
Qed.
