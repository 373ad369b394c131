(** Common infrastructure for all models: outcomes, a state/exception monad that keeps the
    state at the time of a throw, truncating casts.  Nothing here describes cmtj itself. *)
From Coq Require Export Reals String List ZArith Lia Lra Bool.
Export ListNotations.
Open Scope R_scope.
Set Implicit Arguments.

(** Why a call does not return a value.
    [Throw m]     : a C++ exception / Python raise, [m] abbreviating the message;
    [NonFinite]   : the IEEE computation leaves the reals (division by zero, NaN, inf);
    [Undefined]   : C++ undefined behaviour (out-of-range cast, null dereference, x % 0). *)
Inductive err := Throw (msg : string) | NonFinite | Undefined.

Inductive result (A : Type) := Ok (a : A) | Err (e : err).
Arguments Ok {A} a.
Arguments Err {A} e.

Definition rbind {A B} (r : result A) (f : A -> result B) : result B :=
  match r with Ok a => f a | Err e => Err e end.

(** Stateful computation: the final state is returned also when it fails. *)
Definition ST (S A : Type) := S -> S * result A.
Definition ret {S A} (a : A) : ST S A := fun s => (s, Ok a).
Definition fail {S A} (e : err) : ST S A := fun s => (s, Err e).
Definition bind {S A B} (m : ST S A) (f : A -> ST S B) : ST S B :=
  fun s => match m s with
           | (s', Ok a) => f a s'
           | (s', Err e) => (s', Err e)
           end.
Definition lift {S A} (r : result A) : ST S A := fun s => (s, r).
Definition get {S} : ST S S := fun s => (s, Ok s).
Definition modify {S} (f : S -> S) : ST S unit := fun s => (f s, Ok tt).

Declare Scope st_scope.
Delimit Scope st_scope with st.
Notation "x <- m ;; k" := (bind m (fun x => k))
  (at level 61, m at next level, right associativity) : st_scope.
Notation "m ;;; k" := (bind m (fun _ => k)) (at level 61, right associativity) : st_scope.
Notation "x <-- m ;; k" := (rbind m (fun x => k))
  (at level 61, m at next level, right associativity) : st_scope.

(** Division of doubles: dividing by zero leaves the reals. *)
Definition fdiv (a b : R) : result R :=
  if Req_EM_T b 0 then Err NonFinite else Ok (a / b).

(** Truncation towards zero, the value part of a C++ float-to-integer cast. *)
Definition ztrunc (x : R) : Z :=
  if Rle_dec 0 x then Int_part x else (- Int_part (- x))%Z.

(** [static_cast<unsigned int>(x)]: defined iff the truncated value fits 32 bits. *)
Definition to_unsigned (x : R) : result nat :=
  if Rlt_dec (-1) x then
    if Rlt_dec x 4294967296 then Ok (Z.to_nat (ztrunc x)) else Err Undefined
  else Err Undefined.

(** [static_cast<int>(x)]: defined iff the truncated value fits a signed 32-bit int. *)
Definition to_int (x : R) : result Z :=
  if Rlt_dec (-2147483649) x then
    if Rlt_dec x 2147483648 then Ok (ztrunc x) else Err Undefined
  else Err Undefined.

(** Update of position [i] of a list ([v[i] = a] for an existing index). *)
Fixpoint set_nth {A} (i : nat) (a : A) (l : list A) : list A :=
  match l, i with
  | [], _ => []
  | _ :: t, O => a :: t
  | x :: t, S i' => x :: set_nth i' a t
  end.
