(** Specification vocabulary for drivers: closed-form waveforms, independent of the modelled code. *)
From Verif Require Export M_Drivers.
Open Scope R_scope.

(** Trapezoid of height one: rises on [ts, ts+edge], holds for [steady], falls on the next edge. *)
Definition trapezoid_shape (ts edge steady t : R) : R :=
  Rmax 0 (Rmin 1 (Rmin ((t - ts) / edge) ((ts + 2 * edge + steady - t) / edge))).

(** A driver kind whose waveform is constant + amplitude * w(t). *)
Definition amplitude_linear (u : update_type) : Prop := u <> posine /\ u <> halfsine.

(** The same waveform with constant 0 and amplitude 1. *)
Definition unit_wave (d : sdriver) : sdriver :=
  SD (d_update d) 0 1 (d_freq d) (d_phase d) (d_period d) (d_cycle d) (d_tstart d) (d_tstop d)
     (d_edge d) (d_steady d).

(** A driver that some constructor call can produce. *)
Definition constructible (d : sdriver) : Prop :=
  exists u c a f ph per cyc ts te edge steady,
    mkScalarDriver u c a f ph per cyc ts te edge steady = Ok d.

Definition map_result {A B} (f : A -> B) (r : result A) : result B :=
  match r with Ok a => Ok (f a) | Err e => Err e end.
