(** Specification vocabulary for a stack built upside down (C105). *)
From Verif Require Export S_Reach.
Open Scope R_scope.

(** The layer with everything that concerns its lower and its upper neighbour exchanged. *)
Definition flip_reference (r : reference) : reference :=
  match r with RTOP => RBOTTOM | RBOTTOM => RTOP | RNONE => RNONE | RFIXED => RFIXED end.
Definition flip (l : layer) : layer :=
  set_l_refType (flip_reference (l_refType l))
  (set_l_dipoleTop (l_dipoleBottom l) (set_l_dipoleBottom (l_dipoleTop l)
  (set_l_IECTop (l_IECBottom l) (set_l_IECBottom (l_IECTop l)
  (set_l_QuadTop (l_QuadBottom l) (set_l_QuadBottom (l_QuadTop l)
  (set_l_IDMITop (l_IDMIBottom l) (set_l_IDMIBottom (l_IDMITop l) l)))))))).
(** Positions p and q counted from opposite ends. *)
Definition opposite (n p q : nat) : Prop := (p + q + 1 = n)%nat.
(** The layers of [b] are those of [a] in the opposite order, each one flipped; what is remembered for the log may differ. *)
Definition mirrored (a b : junction) : Prop :=
  length (j_layers b) = length (j_layers a) /\
  forall p q l m, opposite (length (j_layers a)) p q -> nth_error (j_layers a) p = Some l -> nth_error (j_layers b) q = Some m -> alike (flip l) m.
