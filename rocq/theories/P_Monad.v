(** Generic facts about the state/exception monad. *)
From Verif Require Export Base.
Open Scope st_scope.

Lemma bind_inv {S A B} (m : ST S A) (f : A -> ST S B) s s' b :
  bind m f s = (s', Ok b) -> exists s1 a, m s = (s1, Ok a) /\ f a s1 = (s', Ok b).
Proof. unfold bind. destruct (m s) as [s1 [a|e]]; [eauto|discriminate]. Qed.
Lemma bind_ok {S A B} (m : ST S A) (f : A -> ST S B) s s1 a :
  m s = (s1, Ok a) -> bind m f s = f a s1.
Proof. unfold bind. intros ->. reflexivity. Qed.
Lemma rbind_inv {A B} (r : result A) (f : A -> result B) b :
  rbind r f = Ok b -> exists a, r = Ok a /\ f a = Ok b.
Proof. destruct r; cbn; [eauto|discriminate]. Qed.

(** Success-only simulation along a state map [phi] and a value map [psi]. *)
Definition simok {S A} (P : S -> Prop) (phi : S -> S) (psi : A -> A) (m1 m2 : ST S A) : Prop :=
  forall s s' a, P s -> m1 s = (s', Ok a) -> m2 (phi s) = (phi s', Ok (psi a)) /\ P s'.

Section Sim.
  Context {S : Type} (P : S -> Prop) (phi : S -> S).
  Lemma simok_bind {A B} (psi : A -> A) (chi : B -> B) (m1 m2 : ST S A) (f1 f2 : A -> ST S B) :
    simok P phi psi m1 m2 -> (forall a, simok P phi chi (f1 a) (f2 (psi a))) ->
    simok P phi chi (bind m1 f1) (bind m2 f2).
  Proof.
    intros H1 H2 s s' b Hs E. apply bind_inv in E. destruct E as (s1 & a & E1 & E2).
    destruct (H1 s s1 a Hs E1) as [E3 Hs1]. unfold bind; rewrite E3. exact (H2 a s1 s' b Hs1 E2).
  Qed.
  Lemma simok_ret {A} (psi : A -> A) a a' : a' = psi a -> simok P phi psi (ret a) (ret a').
  Proof. intros -> s s' b Hs E. inversion E; subst. split; [reflexivity|exact Hs]. Qed.
  Lemma simok_lift {A} (psi : A -> A) r r' : (forall a, r = Ok a -> r' = Ok (psi a)) ->
    simok P phi psi (lift r) (lift r').
  Proof. intros H s s' b Hs E. unfold lift in *. inversion E; subst. rewrite (H b) by reflexivity. auto. Qed.
  Lemma simok_modify (f g : S -> S) : (forall s, P s -> g (phi s) = phi (f s)) ->
    (forall s, P s -> P (f s)) -> simok P phi (fun u => u) (modify f) (modify g).
  Proof. intros H H2 s s' b Hs E. unfold modify in *. inversion E; subst. rewrite H by exact Hs. split; [reflexivity|auto]. Qed.
  Lemma simok_get_bind {B} (chi : B -> B) (f1 f2 : S -> ST S B) :
    (forall s, P s -> forall s' b, f1 s s = (s', Ok b) -> f2 (phi s) (phi s) = (phi s', Ok (chi b)) /\ P s') ->
    simok P phi chi (bind get f1) (bind get f2).
  Proof. intros H s s' b Hs E. unfold bind, get in *. exact (H s Hs s' b E). Qed.
  Lemma simok_fail {A} (psi : A -> A) e (m : ST S A) : simok P phi psi (fail e) m.
  Proof. intros s s' b Hs E. discriminate. Qed.
End Sim.

(** Full commutation (also of failures) along [phi], with an invariant. *)
Definition comm {S A} (P : S -> Prop) (phi : S -> S) (m : ST S A) : Prop :=
  forall s, P s -> m (phi s) = (phi (fst (m s)), snd (m s)) /\ P (fst (m s)).
Section Comm.
  Context {S : Type} (P : S -> Prop) (phi : S -> S).
  Lemma comm_bind {A B} (m : ST S A) (f : A -> ST S B) :
    comm P phi m -> (forall a, comm P phi (f a)) -> comm P phi (bind m f).
  Proof.
    intros H1 H2 s Hs. destruct (H1 s Hs) as [E Hs1]. unfold bind. rewrite E.
    destruct (m s) as [s1 [a|e]]; cbn [fst snd] in *; [apply H2, Hs1|auto].
  Qed.
  Lemma comm_ret {A} (a : A) : comm P phi (ret a).
  Proof. intros s Hs; auto. Qed.
  Lemma comm_fail {A} e : comm P phi (@fail S A e).
  Proof. intros s Hs; auto. Qed.
  Lemma comm_lift {A} (r : result A) : comm P phi (lift r).
  Proof. intros s Hs; auto. Qed.
  Lemma comm_modify (f : S -> S) : (forall s, P s -> f (phi s) = phi (f s)) -> (forall s, P s -> P (f s)) ->
    comm P phi (modify f).
  Proof. intros H H2 s Hs. unfold modify; cbn. rewrite H by exact Hs. auto. Qed.
  Lemma comm_get_bind {B} (f : S -> ST S B) :
    (forall s, P s -> f (phi s) (phi s) = (phi (fst (f s s)), snd (f s s)) /\ P (fst (f s s))) ->
    comm P phi (bind get f).
  Proof. intros H s Hs. unfold bind, get. exact (H s Hs). Qed.
  Lemma comm_reader_bind {B} (f : S -> ST S B) :
    (forall s, P s -> f (phi s) = f s) -> (forall s0, P s0 -> comm P phi (f s0)) -> comm P phi (bind get f).
  Proof.
    intros H H2 s Hs. unfold bind, get. rewrite H by exact Hs. apply H2; exact Hs.
  Qed.
End Comm.

(** Invariance of a property of the state under a computation, whatever its outcome. *)
Definition keeps {S A} (Q : S -> S -> Prop) (m : ST S A) : Prop := forall s, Q s (fst (m s)).
Section Keeps.
  Context {S : Type} (Q : S -> S -> Prop).
  Context (Qrefl : forall s, Q s s) (Qtrans : forall a b c, Q a b -> Q b c -> Q a c).
  Lemma keeps_bind {A B} (m : ST S A) (f : A -> ST S B) :
    keeps Q m -> (forall a, keeps Q (f a)) -> keeps Q (bind m f).
  Proof. intros H1 H2 s. unfold bind. generalize (H1 s). destruct (m s) as [s1 [a|e]]; cbn [fst]; intros H.
    - eapply Qtrans; [exact H|apply H2]. - exact H. Qed.
  Lemma keeps_ret {A} (a : A) : keeps Q (ret a). Proof. intros s; apply Qrefl. Qed.
  Lemma keeps_fail {A} e : keeps Q (@fail S A e). Proof. intros s; apply Qrefl. Qed.
  Lemma keeps_lift {A} (r : result A) : keeps Q (lift r). Proof. intros s; apply Qrefl. Qed.
  Lemma keeps_get : keeps Q get. Proof. intros s; apply Qrefl. Qed.
  Lemma keeps_modify f : (forall s, Q s (f s)) -> keeps Q (modify f). Proof. intros H s; apply H. Qed.
End Keeps.
