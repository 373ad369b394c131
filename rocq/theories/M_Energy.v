(** Model of cmtj/utils/energy.py over the reals, on the log dictionary of [M_Junction]. *)
From Verif Require Export M_Procedures.
From Coq Require Import String Ascii List.
Set Implicit Arguments.
Open Scope R_scope.
Open Scope st_scope.

(** ** Python string operations *)
(** [sub in s] *)
Definition contains (sub s : string) : bool := match String.index 0 sub s with Some _ => true | None => false end.
(** [k[:-1]] *)
Definition drop_last (k : string) : string := String.substring 0 (String.length k - 1) k.
(** [k.split("_")[0]] *)
Fixpoint before_underscore (k : string) : string :=
  match k with
  | EmptyString => EmptyString
  | String c rest => if Ascii.eqb c "_"%char then EmptyString else String c (before_underscore rest)
  end.
(** [k.replace("_mx", "")] *)
Fixpoint remove_mx (k : string) : string :=
  match k with
  | String a ((String b (String c rest)) as tail) =>
      if Ascii.eqb a "_"%char && Ascii.eqb b "m"%char && Ascii.eqb c "x"%char then remove_mx rest
      else String a (remove_mx tail)
  | _ => k
  end.

(** ** EnergyCompute *)
(** energy.py:7-15 *)
Record energy_compute := EC { ec_cell_surface : R; ec_thickness : R; ec_cell_volume : R; ec_log : log_t }.
Definition EnergyCompute (cell_surface thickness : R) (log : log_t) : energy_compute :=
  EC cell_surface thickness (cell_surface * thickness) log.
(** [m * field_vector] summed over the components: two arrays of shapes (3, n) and (3, k) are multiplied with numpy's
    broadcasting of a single column. *)
Definition column_products (m h : list cvec) : result (list R) :=
  if Nat.eqb (length m) (length h) then Ok (map (fun p => c_dot (fst p) (snd p)) (combine m h))
  else match m, h with
       | _, [h0] => Ok (map (fun v => c_dot v h0) m)
       | [m0], _ => Ok (map (fun v => c_dot m0 v) h)
       | _, _ => Err (Throw "operands could not be broadcast together")
       end.
(** energy.py:43-52  numpy divides by zero without an exception, which is [NonFinite] here. *)
Definition calculate_energy_from_field (e : energy_compute) (m h : list cvec) : result (list R) :=
  s <-- column_products m h ;;
  mapM (fun x => fdiv (- x) (ec_cell_volume e)) s.
(** energy.py:54-63 *)
Definition calculate_energy_from_field_interfacial (e : energy_compute) (m h : list cvec) : result (list R) :=
  s <-- column_products m h ;;
  mapM (fun x => fdiv (- x) (ec_cell_surface e)) s.
(** Lookup in the dictionary [mag_vectors]. *)
Fixpoint find_vectors (k : string) (d : list (string * list cvec)) : result (list cvec) :=
  match d with
  | [] => Err (Throw "KeyError")
  | (k', v) :: rest => if String.eqb k' k then Ok v else find_vectors k rest
  end.
(** energy.py:17-41  [field_keys] is a set there: the order of the result is not observable. *)
Definition compute_from_log (e : energy_compute) : result (list (string * list R)) :=
  let log := ec_log e in
  let field_keys := nodup string_dec (map drop_last (filter (contains "_H") (map fst log))) in
  mag_vectors <-- mapM (fun k => let k := remove_mx k in v <-- layer_traj log k ;; Ok (k, v)) (filter (contains "_mx") (map fst log)) ;;
  mapM (fun field_key =>
    let eng_fn := if contains "J_" field_key then calculate_energy_from_field_interfacial e else calculate_energy_from_field e in
    m <-- find_vectors (before_underscore field_key) mag_vectors ;;
    x <-- dict_at (field_key ++ "x")%string log ;;
    y <-- dict_at (field_key ++ "y")%string log ;;
    z <-- dict_at (field_key ++ "z")%string log ;;
    field_series <-- zip3 x y z ;;
    v <-- eng_fn m field_series ;;
    Ok (("energy_" ++ field_key)%string, v)) field_keys.
