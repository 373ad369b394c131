(** Vocabulary for cached methods. *)
From Verif Require Export M_Memo.
Open Scope R_scope.

(** The answers of a program without a cache *)
Fixpoint answers {St A V} (f : St -> A -> result V) (m : nat -> St) (ops : list (op (St := St) (A := A))) : list (result V) :=
  match ops with
  | [] => []
  | Assign r s :: rest => answers f (fun q => if Nat.eqb q r then s else m q) rest
  | Ask r a :: rest => f (m r) a :: answers f m rest
  end.
(** The hash of a key determines the result of the method. *)
Definition hash_decides {St A V} (hash : St -> A -> Z) (f : St -> A -> result V) : Prop :=
  forall s s' a v, hash s a = hash s' a -> f s a = Ok v -> f s' a = Ok v.
(** Keys in the order of their last use, most recent first *)
Fixpoint drop {K} (dec : forall x y : K, {x = y} + {x <> y}) (k : K) (l : list K) : list K :=
  match l with [] => [] | x :: rest => if dec x k then drop dec k rest else x :: drop dec k rest end.
Fixpoint by_use {K} (dec : forall x y : K, {x = y} + {x <> y}) (ks seen : list K) : list K :=
  match ks with [] => seen | k :: rest => by_use dec rest (k :: drop dec k seen) end.
(** Fields of a layer that its comparison looks at *)
Definition same_fields (a b : layerSB) : Prop := sb_id a = sb_id b /\ sb_thickness a = sb_thickness b /\ sb_Kv a = sb_Kv b /\ sb_Ks a = sb_Ks b /\ sb_Ms a = sb_Ms b.
