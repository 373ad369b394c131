(** C86: cached energies and the comparison of layers. *)
From Verif Require Import P_Memo.
From Coq Require Import Psatz.
Open Scope R_scope.
Open Scope st_scope.

(** A cached method answers every program of attribute changes and calls, on any number of instances, like the method itself, exactly when the hash of a key decides the result. *)
Theorem c86_transparent {St A V} (hash : St -> A -> Z) (same : St -> St -> bool) (arg_eqb : A -> A -> bool) (f : St -> A -> result V) (maxsize : nat) :
  (forall a b, arg_eqb a b = true <-> a = b) -> (1 <= maxsize)%nat ->
  ((forall m ops, map fst (fst (lru_run hash same arg_eqb f maxsize m [] ops)) = answers f m ops) <-> hash_decides hash f).
Proof. exact (transparent_iff hash same arg_eqb f maxsize). Qed.
(** Without room the method is always evaluated. *)
Theorem c86_disabled {St A V} (hash : St -> A -> Z) (same : St -> St -> bool) (arg_eqb : A -> A -> bool) (f : St -> A -> result V) m r a :
  lru_call hash same arg_eqb f 0 m [] r a = ([], f (m r) a, true).
Proof. unfold lru_call. cbn [pick]. destruct (f (m r) a); reflexivity. Qed.
Example c86_transparent_example : map fst (fst (lru_run (fun s _ => s) Z.eqb (fun _ _ : unit => true) (fun s _ => Ok (s * 2)%Z) 3 (fun _ => 0%Z) [] [Assign 0%nat 1%Z; Ask 0%nat tt; Assign 0%nat 2%Z; Ask 0%nat tt; Assign 1%nat 1%Z; Ask 1%nat tt])) = [Ok 2; Ok 4; Ok 2]%Z.
Proof.
  apply (proj2 (c86_transparent (fun s (_ : unit) => s) Z.eqb (fun _ _ : unit => true) (fun s _ => Ok (s * 2)%Z) 3 ltac:(intros [] []; tauto) ltac:(lia))). intros s s' a v -> E. exact E.
Qed.
(** The energy of a solver is the one of its present parameters, whatever was assigned before, when solvers that differ have different hashes. *)
Theorem c86_energy (key : solver -> option svec * bool -> Z) same arg_eqb m ops : (forall s s' a, key s a = key s' a -> s = s') -> (forall a b, arg_eqb a b = true <-> a = b) ->
  map fst (fst (lru_run key same arg_eqb (fun s a => create_energy s (fst a) (snd a)) 3 m [] ops)) = answers (fun s a => create_energy s (fst a) (snd a)) m ops.
Proof. intros I E. exact (proj2 (c86_transparent key same arg_eqb _ 3 E ltac:(lia)) (energy_cached key I) m ops). Qed.
(** The cache never holds more than its size. *)
Theorem c86_size {St A V} (hash : St -> A -> Z) (same : St -> St -> bool) (arg_eqb : A -> A -> bool) (f : St -> A -> result V) (maxsize : nat) m ops :
  (length (snd (lru_run hash same arg_eqb f maxsize m [] ops)) <= maxsize)%nat.
Proof. exact (run_size hash same arg_eqb f maxsize ops m [] ltac:(cbn; lia)). Qed.
(** On instances that are not changed, a call is answered from the cache exactly when its key is among the most recently used ones. *)
Theorem c86_recent {St A V} (hash : St -> A -> Z) (same : St -> St -> bool) (arg_eqb : A -> A -> bool) (f : St -> A -> result V) (maxsize : nat) (dec : forall x y : St * A, {x = y} + {x <> y}) m ks i r a :
  (forall x y, arg_eqb x y = true <-> x = y) -> (forall s s' x y, hash s x = hash s' y -> s = s' /\ x = y) -> (forall s, same s s = true) -> (1 <= maxsize)%nat -> (forall s x, exists w, f s x = Ok w) ->
  nth_error ks i = Some (r, a) -> exists v b, nth_error (fst (lru_run hash same arg_eqb f maxsize m [] (map (fun k => Ask (fst k) (snd k)) ks))) i = Some (v, b) /\
    (b = false <-> In (m r, a) (firstn maxsize (by_use dec (map (fun k => (m (fst k), snd k)) (firstn i ks)) []))).
Proof.
  intros E I R M T N. refine (run_keys hash same arg_eqb f maxsize E I R dec m ks [] [] M T _ _ _ i r a N); [intros e []|constructor|rewrite firstn_nil; reflexivity].
Qed.
Example c86_recent_example : fst (lru_run (fun s _ => s) Z.eqb (fun _ _ : unit => true) (fun s _ => Ok (s * 2)%Z) 2 Z.of_nat [] [Ask 1%nat tt; Ask 2%nat tt; Ask 1%nat tt; Ask 3%nat tt; Ask 2%nat tt; Ask 3%nat tt]) =
  [(Ok 2%Z, true); (Ok 4%Z, true); (Ok 2%Z, false); (Ok 6%Z, true); (Ok 4%Z, true); (Ok 6%Z, false)].
Proof. reflexivity. Qed.
(** Exceptions are raised again by every call and leave the cache alone. *)
Theorem c86_failure {St A V} (hash : St -> A -> Z) (same : St -> St -> bool) (arg_eqb : A -> A -> bool) (f : St -> A -> result V) (maxsize : nat) m r a c e :
  (forall x y, arg_eqb x y = true <-> x = y) -> hash_decides hash f -> (forall x, In x c -> exists s, en_hash x = hash s (en_arg x) /\ f s (en_arg x) = Ok (en_val x)) ->
  f (m r) a = Err e -> lru_call hash same arg_eqb f maxsize m c r a = (c, Err e, true).
Proof. intros E D H. exact (call_fails hash same arg_eqb f maxsize E m c r a e D H). Qed.

(** Vectors compare by their components. *)
Theorem c86_vector_eq a b : vector_eqb a b = true <-> a = b.
Proof. exact (vector_eq_iff a b). Qed.
(** Layers compare by number, thickness, anisotropies and magnetisation, dynamic layers by the damping as well; a layer and a dynamic layer with the same fields cannot be compared. *)
Theorem c86_layer_eq a b t : layer_eq a b = Ok t <->
  match sb_dyn a, sb_dyn b with
  | None, None => t = true <-> same_fields a b
  | Some x, Some y => t = true <-> same_fields a b /\ dy_alpha x = dy_alpha y
  | _, _ => ~ same_fields a b /\ t = false
  end.
Proof. exact (layer_eq_iff a b t). Qed.
Example c86_layer_eq_example : layer_eq film (torqued 0) = Err (Throw "'LayerSB' object has no attribute 'alpha'").
Proof. unfold layer_eq. cbn [film torqued sb_dyn]. rewrite (proj2 (base_iff _ _)); [reflexivity|]. unfold same_fields. cbn. auto. Qed.
(** Layers that compare equal need not have the same energy, nor the same torques: demagnetisation, DMI and torques are not compared. *)
Theorem c86_equal_energy_refuted : layer_eq film free = Ok true /\
  eval (fun _ => 0) (no_interaction_symbolic_energy film (SV (ENum 0) (ENum 0) (ENum 0))) - eval (fun _ => 0) (no_interaction_symbolic_energy free (SV (ENum 0) (ENum 0) (ENum 0))) = mu0 / 2.
Proof. exact equal_layers_differ. Qed.
Theorem c86_equal_torque_refuted : layer_eq (torqued 0) (torqued 1) = Ok true /\ exists d e, sb_dyn (torqued 0) = Some d /\ sb_dyn (torqued 1) = Some e /\
  eval (fun _ => 0) (snd (torque (torqued 1) e false)) - eval (fun _ => 0) (snd (torque (torqued 0) d false)) = 1 / 100.
Proof. exact equal_torques_differ. Qed.

Print Assumptions c86_transparent.
Print Assumptions c86_disabled.
Print Assumptions c86_energy.
Print Assumptions c86_size.
Print Assumptions c86_recent.
Print Assumptions c86_failure.
Print Assumptions c86_vector_eq.
Print Assumptions c86_layer_eq.
Print Assumptions c86_equal_energy_refuted.
Print Assumptions c86_equal_torque_refuted.
