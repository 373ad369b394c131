(** Model of functools.lru_cache on methods whose instance is part of the key, as used by cmtj/models/general_sb.py (38, 111, 125, 198, 398, 864),
    and of the comparison of layers and solvers.  Instances are mutable: a cache entry keeps the hash computed at the time of the call and a
    reference to the instance, whose state is compared at the time of the lookup. *)
From Verif Require Export M_SB.
Open Scope R_scope.
Open Scope st_scope.

Section Memo.
  Context {St A V : Type}.
  (** hash(key), the instances' __eq__, equality of the other arguments, the method itself, maxsize *)
  Context (hash : St -> A -> Z) (same : St -> St -> bool) (arg_eqb : A -> A -> bool) (f : St -> A -> result V) (maxsize : nat).
  Record entry := Entry { en_hash : Z; en_ref : nat; en_arg : A; en_val : V }.
  Definition memory := nat -> St.
  (** a dictionary hit: stored hash equal, then the same instance or an equal one, and equal arguments *)
  Definition hit (m : memory) (r : nat) (a : A) (e : entry) : bool :=
    (Z.eqb (en_hash e) (hash (m r) a) && (Nat.eqb (en_ref e) r || same (m (en_ref e)) (m r)) && arg_eqb (en_arg e) a)%bool.
  Fixpoint pick (m : memory) (r : nat) (a : A) (c : list entry) : option (entry * list entry) :=
    match c with
    | [] => None
    | e :: rest => if hit m r a e then Some (e, rest) else match pick m r a rest with Some (x, others) => Some (x, e :: others) | None => None end
    end.
  (** One call: the cache (most recently used first), the outcome, and whether the method was evaluated; exceptions are not kept. *)
  Definition lru_call (m : memory) (c : list entry) (r : nat) (a : A) : list entry * result V * bool :=
    match pick m r a c with
    | Some (e, others) => (e :: others, Ok (en_val e), false)
    | None =>
        match f (m r) a with
        | Ok v => (firstn maxsize (Entry (hash (m r) a) r a v :: c), Ok v, true)
        | Err e => (c, Err e, true)
        end
    end.
  (** A program: attributes of instances are assigned, the method is called. *)
  Inductive op := Assign (r : nat) (s : St) | Ask (r : nat) (a : A).
  Definition store (m : memory) (r : nat) (s : St) : memory := fun q => if Nat.eqb q r then s else m q.
  Fixpoint lru_run (m : memory) (c : list entry) (ops : list op) : list (result V * bool) * list entry :=
    match ops with
    | [] => ([], c)
    | Assign r s :: rest => lru_run (store m r s) c rest
    | Ask r a :: rest =>
        let '(c', v, evaluated) := lru_call m c r a in
        let (out, c'') := lru_run m c' rest in ((v, evaluated) :: out, c'')
    end.
End Memo.
Arguments Assign {St A}.
Arguments Ask {St A}.
Arguments entry : clear implicits.

(** ** Comparison *)
(** utils/general.py:44-45 *)
Definition vector_eqb (a b : vectorObj) : bool :=
  if Req_EM_T (vo_theta a) (vo_theta b) then if Req_EM_T (vo_phi a) (vo_phi b) then if Req_EM_T (vo_mag a) (vo_mag b) then true else false else false else false.
(** general_sb.py:254-261 *)
Definition layer_base_eqb (a b : layerSB) : bool :=
  (Nat.eqb (sb_id a) (sb_id b) && (if Req_EM_T (sb_thickness a) (sb_thickness b) then true else false) && vector_eqb (sb_Kv a) (sb_Kv b) &&
   (if Req_EM_T (sb_Ks a) (sb_Ks b) then true else false) && (if Req_EM_T (sb_Ms a) (sb_Ms b) then true else false))%bool.
(** general_sb.py:254-261 and 314-315; of a LayerSB and a LayerDynamic the method of the latter is used. *)
Definition layer_eq (a b : layerSB) : result bool :=
  match sb_dyn a, sb_dyn b with
  | None, None => Ok (layer_base_eqb a b)
  | Some x, Some y => Ok (layer_base_eqb a b && (if Req_EM_T (dy_alpha x) (dy_alpha y) then true else false))%bool
  | _, _ => if layer_base_eqb a b then Err (Throw "'LayerSB' object has no attribute 'alpha'") else Ok false
  end.
