(** Property C95: two layers held together by interlayer exchange only. *)
From Verif Require Import P_Exchange P_Alone.
From Verif Require Export S_Exchange.
Open Scope R_scope.

(** C95.  The coupled equations conserve the angle between the two magnetisations ... *)
Theorem c95_conserved_exactly : forall a b h1 h2 T u du, exchange_pair a b h1 h2 -> solves [a; b] T u du ->
  forall t, 0 <= t <= T -> Dot (u 0%nat t) (u 1%nat t) = Dot (u 0%nat 0) (u 1%nat 0).
Proof. exact pair_conserves. Qed.
(** ... the default solver does not. *)
Theorem c95_conserved_refuted : ~ forall T dt wf e j j' a b a' b' h1 h2, exchange_pair a b h1 h2 -> Unit (l_mag a) -> Unit (l_mag b) ->
  j_layers j = [a; b] -> j_layers j' = [a'; b'] -> runSimulation T dt wf e RK4 j = (j', Ok tt) ->
  Dot (l_mag a') (l_mag b') = Dot (l_mag a) (l_mag b).
Proof. exact not_conserved. Qed.
(** What one step makes of the cosine of the angle, for any two couplings: neighbours are frozen during a step. *)
Theorem c95_step : forall t dt j j' a b a' b' h1 h2, exchange_pair a b h1 h2 -> Unit (l_mag a) -> Unit (l_mag b) ->
  j_layers j = [a; b] -> j_layers j' = [a'; b'] -> runMultiLayerSolver t dt j = (j', Ok tt) ->
  let z1 := gamma0 * h1 * dt in let z2 := gamma0 * h2 * dt in Unit (l_mag a') /\ Unit (l_mag b') /\
  Dot (l_mag a') (l_mag b') = next_cosine (Dot (l_mag a) (l_mag b)) (fst (gain RunMulti z1)) (snd (gain RunMulti z1)) (fst (gain RunMulti z2)) (snd (gain RunMulti z2)).
Proof. exact pair_step. Qed.
(** Equal layers: every step opens the angle, for either sign of the coupling ... *)
Theorem c95_drift : forall dt s N a b h, exchange_pair a b h h -> Unit (l_mag a) -> Unit (l_mag b) -> j_layers (s 0%nat) = [a; b] ->
  trajectory RunMulti dt s N -> (gamma0 * h * dt) ^ 2 <= 1 ->
  forall k ak bk ak' bk', (k < N)%nat -> j_layers (s k) = [ak; bk] -> j_layers (s (S k)) = [ak'; bk'] ->
  Dot (l_mag ak') (l_mag bk') <= Dot (l_mag ak) (l_mag bk) -
    2 / 5 * (gamma0 * h * dt) ^ 2 * (1 - Dot (l_mag ak) (l_mag bk) * Dot (l_mag ak) (l_mag bk)).
Proof. exact pair_drift. Qed.
(** ... until the layers are antiparallel, even if the coupling is ferromagnetic. *)
Theorem c95_limit : forall z q eps, z <> 0 -> z ^ 2 <= 1 -> q < 1 -> 0 < eps -> exists K, forall dt s N a b aN bN h, (K <= N)%nat ->
  exchange_pair a b h h -> Unit (l_mag a) -> Unit (l_mag b) -> j_layers (s 0%nat) = [a; b] -> trajectory RunMulti dt s N ->
  gamma0 * h * dt = z -> Dot (l_mag a) (l_mag b) = q -> j_layers (s N) = [aN; bN] -> Dot (l_mag aN) (l_mag bN) < -1 + eps.
Proof. exact pair_limit. Qed.
(** The error at a fixed time is of the order of the step, not of its fourth power. *)
Theorem c95_first_order : forall dt s N a b h, exchange_pair a b h h -> Unit (l_mag a) -> Unit (l_mag b) -> j_layers (s 0%nat) = [a; b] ->
  trajectory RunMulti dt s N -> (gamma0 * h * dt) ^ 2 <= 1 -> -1 / 2 <= Dot (l_mag a) (l_mag b) <= 1 / 2 ->
  forall k ak bk, (k <= N)%nat -> j_layers (s k) = [ak; bk] ->
  Dot (l_mag ak) (l_mag bk) <= Rmax (-1 / 2) (Dot (l_mag a) (l_mag b) - 3 / 10 * (gamma0 * h) ^ 2 * (INR k * dt) * dt).
Proof. exact pair_first_order. Qed.
(** The same for runSimulation. *)
Theorem c95_run : forall T dt wf e j j' a b a' b' h, exchange_pair a b h h -> Unit (l_mag a) -> Unit (l_mag b) ->
  j_layers j = [a; b] -> j_layers j' = [a'; b'] -> (gamma0 * h * dt) ^ 2 <= 1 -> runSimulation T dt wf e RK4 j = (j', Ok tt) ->
  exists N, IntegerPart (T / dt) N /\ Dot (l_mag a') (l_mag b') <= Dot (l_mag a) (l_mag b) /\
    (gamma0 * h * dt <> 0 -> -1 < Dot (l_mag a) (l_mag b) < 1 -> (0 < N)%nat -> Dot (l_mag a') (l_mag b') < Dot (l_mag a) (l_mag b)).
Proof. exact pair_run. Qed.
(** Layers with a constant coupling between them and nothing else. *)
Theorem c95_held : forall a b J, held_by a b J -> exchange_pair a b (J / (l_Ms a * l_thickness a)) (J / (l_Ms b * l_thickness b)).
Proof. exact held_pair. Qed.

(** A ferromagnetic pair at a right angle: a step of [1/n] is the angle [1/n], and all simulations succeed. *)
Example c95_example : held_by ex_lower ex_upper (/ gamma0) /\ exchange_pair ex_lower ex_upper (/ gamma0) (/ gamma0) /\
  Unit (l_mag ex_lower) /\ Unit (l_mag ex_upper) /\ Dot (l_mag ex_lower) (l_mag ex_upper) = 0 /\ j_layers ex_bonded = [ex_lower; ex_upper] /\
  (forall n, 0 < n -> gamma0 * / gamma0 * / n = / n) /\
  forall e mode n, (0 < n < 4294967296)%Z -> exists j', runSimulation 1 (/ IZR n) (/ IZR n) e mode ex_bonded = (j', Ok tt).
Proof.
  destruct bonded_units as (A & B & C). repeat (split; [first [exact bonded_held|exact bonded_pair|assumption|reflexivity]|]).
  split; [intros n Hn; unfold gamma0; field; lra|exact bonded_runs].
Qed.
(** Its exact motion: both turn about the sum of the two. *)
Example c95_solution : solves [ex_lower; ex_upper] 1 ex_dance (fun p t => Scal (sqrt 2) (Cross ex_axis (ex_dance p t))) /\ starts [ex_lower; ex_upper] ex_dance.
Proof. exact (bonded_solves 1). Qed.
Print Assumptions c95_conserved_exactly.
Print Assumptions c95_conserved_refuted.
Print Assumptions c95_step.
Print Assumptions c95_drift.
Print Assumptions c95_limit.
Print Assumptions c95_first_order.
Print Assumptions c95_run.
Print Assumptions c95_held.
