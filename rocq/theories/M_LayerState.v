(** Layer state: the fields of [Layer] (core/junction.hpp:115-226), with one functional
    setter per field.  Generated boilerplate; no behaviour of cmtj in this file. *)
From Verif Require Export M_Drivers.
Open Scope R_scope.

(** core/junction.hpp:111 *)
Inductive reference := RNONE | RFIXED | RTOP | RBOTTOM.
(** core/junction.hpp:113 *)
Inductive solver_mode := EULER_HEUN | RK4 | DORMAND_PRICE | HEUN.

(** core/noise.hpp:242-248  the vector noise source of a layer.  [vn_raw k] are the values the
    three component tickers deliver at tick [k] (the coloured-noise buffers are modelled in
    M_Noise.v; here they are an arbitrary stream), [vn_pos] the number of ticks so far. *)
Record vnoise := VN { vn_axis : axis; vn_scale : R; vn_raw : nat -> cvec; vn_pos : nat }.

(** core/junction.hpp:193-203  values remembered by the last field/torque evaluation. *)
Record lcache := LC {
  c_H_log : cvec;
  c_Hoe_log : cvec;
  c_Hext : cvec;
  c_Hdipole : cvec;
  c_Hdemag : cvec;
  c_Hoe : cvec;
  c_HAnis : cvec;
  c_Hfluctuation : cvec;
  c_Hdmi : cvec;
  c_Hidmi : cvec;
  c_Hfl_v : cvec;
  c_Hdl_v : cvec;
  c_HIEC : cvec;
  c_Jbottom_log : R;
  c_Jtop_log : R;
  c_J2bottom_log : R;
  c_J2top_log : R;
  c_K_log : R;
  c_I_log : R }.

(** core/junction.hpp:117-226.  [l_nsrc]/[l_ngen] model the global generator behind the coloured
    noise buffers: the [n]-th buffer set created for this layer delivers the samples [l_nsrc n].
    [l_rng]/[l_rpos] is the layer's own Gaussian generator ([distribution], 144-145).
    [l_ofn] are the parameters of the never-read 1/f source (181, 360-367).
    Omitted: H_log aliases not read by anything, [Hconst], [Hthermal], [HIECtop], [HIECbottom],
    [hopt], [dWn], [dWn2] (never read). *)
Record layer := LY {
  l_id : string;
  l_mag : cvec;
  l_anis : cvec;
  l_Ms : R;
  l_thickness : R;
  l_cellVolume : R;
  l_cellSurface : R;
  l_demag : tensor;
  l_dipoleBottom : tensor;
  l_dipoleTop : tensor;
  l_damping : R;
  l_fieldLikeTorque : R;
  l_dampingLikeTorque : R;
  l_slon : R;
  l_beta : R;
  l_kappa : R;
  l_spinPol : R;
  l_includeSTT : bool;
  l_includeSOT : bool;
  l_dynamicSOT : bool;
  l_alternativeSTT : bool;
  l_temperatureSet : bool;
  l_nonStochTemp : bool;
  l_nonStochOneF : bool;
  l_pinkNoiseSet : bool;
  l_reference : cvec;
  l_refType : reference;
  l_temperature : sdriver;
  l_IECTop : sdriver;
  l_IECBottom : sdriver;
  l_QuadTop : sdriver;
  l_QuadBottom : sdriver;
  l_current : sdriver;
  l_anisotropy : sdriver;
  l_flDriver : sdriver;
  l_dlDriver : sdriver;
  l_IDMITop : adriver;
  l_IDMIBottom : adriver;
  l_Hreserved : adriver;
  l_external : adriver;
  l_Oersted : adriver;
  l_Hdmi : adriver;
  l_nAlpha : R;
  l_nScale : R;
  l_nStd : R;
  l_nAxis : axis;
  l_ofn : (nat * R * R);
  l_bfn : option vnoise;
  l_nsrc : nat -> nat -> cvec;
  l_ngen : nat;
  l_rng : nat -> R;
  l_rpos : nat;
  l_cache : lcache }.

Definition set_c_H_log (v : cvec) (c : lcache) : lcache :=
  LC v (c_Hoe_log c) (c_Hext c) (c_Hdipole c) (c_Hdemag c) (c_Hoe c) (c_HAnis c) (c_Hfluctuation
    c) (c_Hdmi c) (c_Hidmi c) (c_Hfl_v c) (c_Hdl_v c) (c_HIEC c) (c_Jbottom_log c) (c_Jtop_log
    c) (c_J2bottom_log c) (c_J2top_log c) (c_K_log c) (c_I_log c).
Definition set_c_Hoe_log (v : cvec) (c : lcache) : lcache :=
  LC (c_H_log c) v (c_Hext c) (c_Hdipole c) (c_Hdemag c) (c_Hoe c) (c_HAnis c) (c_Hfluctuation
    c) (c_Hdmi c) (c_Hidmi c) (c_Hfl_v c) (c_Hdl_v c) (c_HIEC c) (c_Jbottom_log c) (c_Jtop_log
    c) (c_J2bottom_log c) (c_J2top_log c) (c_K_log c) (c_I_log c).
Definition set_c_Hext (v : cvec) (c : lcache) : lcache :=
  LC (c_H_log c) (c_Hoe_log c) v (c_Hdipole c) (c_Hdemag c) (c_Hoe c) (c_HAnis c)
    (c_Hfluctuation c) (c_Hdmi c) (c_Hidmi c) (c_Hfl_v c) (c_Hdl_v c) (c_HIEC c) (c_Jbottom_log
    c) (c_Jtop_log c) (c_J2bottom_log c) (c_J2top_log c) (c_K_log c) (c_I_log c).
Definition set_c_Hdipole (v : cvec) (c : lcache) : lcache :=
  LC (c_H_log c) (c_Hoe_log c) (c_Hext c) v (c_Hdemag c) (c_Hoe c) (c_HAnis c) (c_Hfluctuation
    c) (c_Hdmi c) (c_Hidmi c) (c_Hfl_v c) (c_Hdl_v c) (c_HIEC c) (c_Jbottom_log c) (c_Jtop_log
    c) (c_J2bottom_log c) (c_J2top_log c) (c_K_log c) (c_I_log c).
Definition set_c_Hdemag (v : cvec) (c : lcache) : lcache :=
  LC (c_H_log c) (c_Hoe_log c) (c_Hext c) (c_Hdipole c) v (c_Hoe c) (c_HAnis c) (c_Hfluctuation
    c) (c_Hdmi c) (c_Hidmi c) (c_Hfl_v c) (c_Hdl_v c) (c_HIEC c) (c_Jbottom_log c) (c_Jtop_log
    c) (c_J2bottom_log c) (c_J2top_log c) (c_K_log c) (c_I_log c).
Definition set_c_Hoe (v : cvec) (c : lcache) : lcache :=
  LC (c_H_log c) (c_Hoe_log c) (c_Hext c) (c_Hdipole c) (c_Hdemag c) v (c_HAnis c)
    (c_Hfluctuation c) (c_Hdmi c) (c_Hidmi c) (c_Hfl_v c) (c_Hdl_v c) (c_HIEC c) (c_Jbottom_log
    c) (c_Jtop_log c) (c_J2bottom_log c) (c_J2top_log c) (c_K_log c) (c_I_log c).
Definition set_c_HAnis (v : cvec) (c : lcache) : lcache :=
  LC (c_H_log c) (c_Hoe_log c) (c_Hext c) (c_Hdipole c) (c_Hdemag c) (c_Hoe c) v (c_Hfluctuation
    c) (c_Hdmi c) (c_Hidmi c) (c_Hfl_v c) (c_Hdl_v c) (c_HIEC c) (c_Jbottom_log c) (c_Jtop_log
    c) (c_J2bottom_log c) (c_J2top_log c) (c_K_log c) (c_I_log c).
Definition set_c_Hfluctuation (v : cvec) (c : lcache) : lcache :=
  LC (c_H_log c) (c_Hoe_log c) (c_Hext c) (c_Hdipole c) (c_Hdemag c) (c_Hoe c) (c_HAnis c) v
    (c_Hdmi c) (c_Hidmi c) (c_Hfl_v c) (c_Hdl_v c) (c_HIEC c) (c_Jbottom_log c) (c_Jtop_log c)
    (c_J2bottom_log c) (c_J2top_log c) (c_K_log c) (c_I_log c).
Definition set_c_Hdmi (v : cvec) (c : lcache) : lcache :=
  LC (c_H_log c) (c_Hoe_log c) (c_Hext c) (c_Hdipole c) (c_Hdemag c) (c_Hoe c) (c_HAnis c)
    (c_Hfluctuation c) v (c_Hidmi c) (c_Hfl_v c) (c_Hdl_v c) (c_HIEC c) (c_Jbottom_log c)
    (c_Jtop_log c) (c_J2bottom_log c) (c_J2top_log c) (c_K_log c) (c_I_log c).
Definition set_c_Hidmi (v : cvec) (c : lcache) : lcache :=
  LC (c_H_log c) (c_Hoe_log c) (c_Hext c) (c_Hdipole c) (c_Hdemag c) (c_Hoe c) (c_HAnis c)
    (c_Hfluctuation c) (c_Hdmi c) v (c_Hfl_v c) (c_Hdl_v c) (c_HIEC c) (c_Jbottom_log c)
    (c_Jtop_log c) (c_J2bottom_log c) (c_J2top_log c) (c_K_log c) (c_I_log c).
Definition set_c_Hfl_v (v : cvec) (c : lcache) : lcache :=
  LC (c_H_log c) (c_Hoe_log c) (c_Hext c) (c_Hdipole c) (c_Hdemag c) (c_Hoe c) (c_HAnis c)
    (c_Hfluctuation c) (c_Hdmi c) (c_Hidmi c) v (c_Hdl_v c) (c_HIEC c) (c_Jbottom_log c)
    (c_Jtop_log c) (c_J2bottom_log c) (c_J2top_log c) (c_K_log c) (c_I_log c).
Definition set_c_Hdl_v (v : cvec) (c : lcache) : lcache :=
  LC (c_H_log c) (c_Hoe_log c) (c_Hext c) (c_Hdipole c) (c_Hdemag c) (c_Hoe c) (c_HAnis c)
    (c_Hfluctuation c) (c_Hdmi c) (c_Hidmi c) (c_Hfl_v c) v (c_HIEC c) (c_Jbottom_log c)
    (c_Jtop_log c) (c_J2bottom_log c) (c_J2top_log c) (c_K_log c) (c_I_log c).
Definition set_c_HIEC (v : cvec) (c : lcache) : lcache :=
  LC (c_H_log c) (c_Hoe_log c) (c_Hext c) (c_Hdipole c) (c_Hdemag c) (c_Hoe c) (c_HAnis c)
    (c_Hfluctuation c) (c_Hdmi c) (c_Hidmi c) (c_Hfl_v c) (c_Hdl_v c) v (c_Jbottom_log c)
    (c_Jtop_log c) (c_J2bottom_log c) (c_J2top_log c) (c_K_log c) (c_I_log c).
Definition set_c_Jbottom_log (v : R) (c : lcache) : lcache :=
  LC (c_H_log c) (c_Hoe_log c) (c_Hext c) (c_Hdipole c) (c_Hdemag c) (c_Hoe c) (c_HAnis c)
    (c_Hfluctuation c) (c_Hdmi c) (c_Hidmi c) (c_Hfl_v c) (c_Hdl_v c) (c_HIEC c) v (c_Jtop_log
    c) (c_J2bottom_log c) (c_J2top_log c) (c_K_log c) (c_I_log c).
Definition set_c_Jtop_log (v : R) (c : lcache) : lcache :=
  LC (c_H_log c) (c_Hoe_log c) (c_Hext c) (c_Hdipole c) (c_Hdemag c) (c_Hoe c) (c_HAnis c)
    (c_Hfluctuation c) (c_Hdmi c) (c_Hidmi c) (c_Hfl_v c) (c_Hdl_v c) (c_HIEC c) (c_Jbottom_log
    c) v (c_J2bottom_log c) (c_J2top_log c) (c_K_log c) (c_I_log c).
Definition set_c_J2bottom_log (v : R) (c : lcache) : lcache :=
  LC (c_H_log c) (c_Hoe_log c) (c_Hext c) (c_Hdipole c) (c_Hdemag c) (c_Hoe c) (c_HAnis c)
    (c_Hfluctuation c) (c_Hdmi c) (c_Hidmi c) (c_Hfl_v c) (c_Hdl_v c) (c_HIEC c) (c_Jbottom_log
    c) (c_Jtop_log c) v (c_J2top_log c) (c_K_log c) (c_I_log c).
Definition set_c_J2top_log (v : R) (c : lcache) : lcache :=
  LC (c_H_log c) (c_Hoe_log c) (c_Hext c) (c_Hdipole c) (c_Hdemag c) (c_Hoe c) (c_HAnis c)
    (c_Hfluctuation c) (c_Hdmi c) (c_Hidmi c) (c_Hfl_v c) (c_Hdl_v c) (c_HIEC c) (c_Jbottom_log
    c) (c_Jtop_log c) (c_J2bottom_log c) v (c_K_log c) (c_I_log c).
Definition set_c_K_log (v : R) (c : lcache) : lcache :=
  LC (c_H_log c) (c_Hoe_log c) (c_Hext c) (c_Hdipole c) (c_Hdemag c) (c_Hoe c) (c_HAnis c)
    (c_Hfluctuation c) (c_Hdmi c) (c_Hidmi c) (c_Hfl_v c) (c_Hdl_v c) (c_HIEC c) (c_Jbottom_log
    c) (c_Jtop_log c) (c_J2bottom_log c) (c_J2top_log c) v (c_I_log c).
Definition set_c_I_log (v : R) (c : lcache) : lcache :=
  LC (c_H_log c) (c_Hoe_log c) (c_Hext c) (c_Hdipole c) (c_Hdemag c) (c_Hoe c) (c_HAnis c)
    (c_Hfluctuation c) (c_Hdmi c) (c_Hidmi c) (c_Hfl_v c) (c_Hdl_v c) (c_HIEC c) (c_Jbottom_log
    c) (c_Jtop_log c) (c_J2bottom_log c) (c_J2top_log c) (c_K_log c) v.

Definition set_l_id (v : string) (l : layer) : layer :=
  LY v (l_mag l) (l_anis l) (l_Ms l) (l_thickness l) (l_cellVolume l) (l_cellSurface l) (l_demag
    l) (l_dipoleBottom l) (l_dipoleTop l) (l_damping l) (l_fieldLikeTorque l)
    (l_dampingLikeTorque l) (l_slon l) (l_beta l) (l_kappa l) (l_spinPol l) (l_includeSTT l)
    (l_includeSOT l) (l_dynamicSOT l) (l_alternativeSTT l) (l_temperatureSet l) (l_nonStochTemp
    l) (l_nonStochOneF l) (l_pinkNoiseSet l) (l_reference l) (l_refType l) (l_temperature l)
    (l_IECTop l) (l_IECBottom l) (l_QuadTop l) (l_QuadBottom l) (l_current l) (l_anisotropy l)
    (l_flDriver l) (l_dlDriver l) (l_IDMITop l) (l_IDMIBottom l) (l_Hreserved l) (l_external l)
    (l_Oersted l) (l_Hdmi l) (l_nAlpha l) (l_nScale l) (l_nStd l) (l_nAxis l) (l_ofn l) (l_bfn
    l) (l_nsrc l) (l_ngen l) (l_rng l) (l_rpos l) (l_cache l).
Definition set_l_mag (v : cvec) (l : layer) : layer :=
  LY (l_id l) v (l_anis l) (l_Ms l) (l_thickness l) (l_cellVolume l) (l_cellSurface l) (l_demag
    l) (l_dipoleBottom l) (l_dipoleTop l) (l_damping l) (l_fieldLikeTorque l)
    (l_dampingLikeTorque l) (l_slon l) (l_beta l) (l_kappa l) (l_spinPol l) (l_includeSTT l)
    (l_includeSOT l) (l_dynamicSOT l) (l_alternativeSTT l) (l_temperatureSet l) (l_nonStochTemp
    l) (l_nonStochOneF l) (l_pinkNoiseSet l) (l_reference l) (l_refType l) (l_temperature l)
    (l_IECTop l) (l_IECBottom l) (l_QuadTop l) (l_QuadBottom l) (l_current l) (l_anisotropy l)
    (l_flDriver l) (l_dlDriver l) (l_IDMITop l) (l_IDMIBottom l) (l_Hreserved l) (l_external l)
    (l_Oersted l) (l_Hdmi l) (l_nAlpha l) (l_nScale l) (l_nStd l) (l_nAxis l) (l_ofn l) (l_bfn
    l) (l_nsrc l) (l_ngen l) (l_rng l) (l_rpos l) (l_cache l).
Definition set_l_anis (v : cvec) (l : layer) : layer :=
  LY (l_id l) (l_mag l) v (l_Ms l) (l_thickness l) (l_cellVolume l) (l_cellSurface l) (l_demag
    l) (l_dipoleBottom l) (l_dipoleTop l) (l_damping l) (l_fieldLikeTorque l)
    (l_dampingLikeTorque l) (l_slon l) (l_beta l) (l_kappa l) (l_spinPol l) (l_includeSTT l)
    (l_includeSOT l) (l_dynamicSOT l) (l_alternativeSTT l) (l_temperatureSet l) (l_nonStochTemp
    l) (l_nonStochOneF l) (l_pinkNoiseSet l) (l_reference l) (l_refType l) (l_temperature l)
    (l_IECTop l) (l_IECBottom l) (l_QuadTop l) (l_QuadBottom l) (l_current l) (l_anisotropy l)
    (l_flDriver l) (l_dlDriver l) (l_IDMITop l) (l_IDMIBottom l) (l_Hreserved l) (l_external l)
    (l_Oersted l) (l_Hdmi l) (l_nAlpha l) (l_nScale l) (l_nStd l) (l_nAxis l) (l_ofn l) (l_bfn
    l) (l_nsrc l) (l_ngen l) (l_rng l) (l_rpos l) (l_cache l).
Definition set_l_Ms (v : R) (l : layer) : layer :=
  LY (l_id l) (l_mag l) (l_anis l) v (l_thickness l) (l_cellVolume l) (l_cellSurface l) (l_demag
    l) (l_dipoleBottom l) (l_dipoleTop l) (l_damping l) (l_fieldLikeTorque l)
    (l_dampingLikeTorque l) (l_slon l) (l_beta l) (l_kappa l) (l_spinPol l) (l_includeSTT l)
    (l_includeSOT l) (l_dynamicSOT l) (l_alternativeSTT l) (l_temperatureSet l) (l_nonStochTemp
    l) (l_nonStochOneF l) (l_pinkNoiseSet l) (l_reference l) (l_refType l) (l_temperature l)
    (l_IECTop l) (l_IECBottom l) (l_QuadTop l) (l_QuadBottom l) (l_current l) (l_anisotropy l)
    (l_flDriver l) (l_dlDriver l) (l_IDMITop l) (l_IDMIBottom l) (l_Hreserved l) (l_external l)
    (l_Oersted l) (l_Hdmi l) (l_nAlpha l) (l_nScale l) (l_nStd l) (l_nAxis l) (l_ofn l) (l_bfn
    l) (l_nsrc l) (l_ngen l) (l_rng l) (l_rpos l) (l_cache l).
Definition set_l_thickness (v : R) (l : layer) : layer :=
  LY (l_id l) (l_mag l) (l_anis l) (l_Ms l) v (l_cellVolume l) (l_cellSurface l) (l_demag l)
    (l_dipoleBottom l) (l_dipoleTop l) (l_damping l) (l_fieldLikeTorque l) (l_dampingLikeTorque
    l) (l_slon l) (l_beta l) (l_kappa l) (l_spinPol l) (l_includeSTT l) (l_includeSOT l)
    (l_dynamicSOT l) (l_alternativeSTT l) (l_temperatureSet l) (l_nonStochTemp l)
    (l_nonStochOneF l) (l_pinkNoiseSet l) (l_reference l) (l_refType l) (l_temperature l)
    (l_IECTop l) (l_IECBottom l) (l_QuadTop l) (l_QuadBottom l) (l_current l) (l_anisotropy l)
    (l_flDriver l) (l_dlDriver l) (l_IDMITop l) (l_IDMIBottom l) (l_Hreserved l) (l_external l)
    (l_Oersted l) (l_Hdmi l) (l_nAlpha l) (l_nScale l) (l_nStd l) (l_nAxis l) (l_ofn l) (l_bfn
    l) (l_nsrc l) (l_ngen l) (l_rng l) (l_rpos l) (l_cache l).
Definition set_l_cellVolume (v : R) (l : layer) : layer :=
  LY (l_id l) (l_mag l) (l_anis l) (l_Ms l) (l_thickness l) v (l_cellSurface l) (l_demag l)
    (l_dipoleBottom l) (l_dipoleTop l) (l_damping l) (l_fieldLikeTorque l) (l_dampingLikeTorque
    l) (l_slon l) (l_beta l) (l_kappa l) (l_spinPol l) (l_includeSTT l) (l_includeSOT l)
    (l_dynamicSOT l) (l_alternativeSTT l) (l_temperatureSet l) (l_nonStochTemp l)
    (l_nonStochOneF l) (l_pinkNoiseSet l) (l_reference l) (l_refType l) (l_temperature l)
    (l_IECTop l) (l_IECBottom l) (l_QuadTop l) (l_QuadBottom l) (l_current l) (l_anisotropy l)
    (l_flDriver l) (l_dlDriver l) (l_IDMITop l) (l_IDMIBottom l) (l_Hreserved l) (l_external l)
    (l_Oersted l) (l_Hdmi l) (l_nAlpha l) (l_nScale l) (l_nStd l) (l_nAxis l) (l_ofn l) (l_bfn
    l) (l_nsrc l) (l_ngen l) (l_rng l) (l_rpos l) (l_cache l).
Definition set_l_cellSurface (v : R) (l : layer) : layer :=
  LY (l_id l) (l_mag l) (l_anis l) (l_Ms l) (l_thickness l) (l_cellVolume l) v (l_demag l)
    (l_dipoleBottom l) (l_dipoleTop l) (l_damping l) (l_fieldLikeTorque l) (l_dampingLikeTorque
    l) (l_slon l) (l_beta l) (l_kappa l) (l_spinPol l) (l_includeSTT l) (l_includeSOT l)
    (l_dynamicSOT l) (l_alternativeSTT l) (l_temperatureSet l) (l_nonStochTemp l)
    (l_nonStochOneF l) (l_pinkNoiseSet l) (l_reference l) (l_refType l) (l_temperature l)
    (l_IECTop l) (l_IECBottom l) (l_QuadTop l) (l_QuadBottom l) (l_current l) (l_anisotropy l)
    (l_flDriver l) (l_dlDriver l) (l_IDMITop l) (l_IDMIBottom l) (l_Hreserved l) (l_external l)
    (l_Oersted l) (l_Hdmi l) (l_nAlpha l) (l_nScale l) (l_nStd l) (l_nAxis l) (l_ofn l) (l_bfn
    l) (l_nsrc l) (l_ngen l) (l_rng l) (l_rpos l) (l_cache l).
Definition set_l_demag (v : tensor) (l : layer) : layer :=
  LY (l_id l) (l_mag l) (l_anis l) (l_Ms l) (l_thickness l) (l_cellVolume l) (l_cellSurface l) v
    (l_dipoleBottom l) (l_dipoleTop l) (l_damping l) (l_fieldLikeTorque l) (l_dampingLikeTorque
    l) (l_slon l) (l_beta l) (l_kappa l) (l_spinPol l) (l_includeSTT l) (l_includeSOT l)
    (l_dynamicSOT l) (l_alternativeSTT l) (l_temperatureSet l) (l_nonStochTemp l)
    (l_nonStochOneF l) (l_pinkNoiseSet l) (l_reference l) (l_refType l) (l_temperature l)
    (l_IECTop l) (l_IECBottom l) (l_QuadTop l) (l_QuadBottom l) (l_current l) (l_anisotropy l)
    (l_flDriver l) (l_dlDriver l) (l_IDMITop l) (l_IDMIBottom l) (l_Hreserved l) (l_external l)
    (l_Oersted l) (l_Hdmi l) (l_nAlpha l) (l_nScale l) (l_nStd l) (l_nAxis l) (l_ofn l) (l_bfn
    l) (l_nsrc l) (l_ngen l) (l_rng l) (l_rpos l) (l_cache l).
Definition set_l_dipoleBottom (v : tensor) (l : layer) : layer :=
  LY (l_id l) (l_mag l) (l_anis l) (l_Ms l) (l_thickness l) (l_cellVolume l) (l_cellSurface l)
    (l_demag l) v (l_dipoleTop l) (l_damping l) (l_fieldLikeTorque l) (l_dampingLikeTorque l)
    (l_slon l) (l_beta l) (l_kappa l) (l_spinPol l) (l_includeSTT l) (l_includeSOT l)
    (l_dynamicSOT l) (l_alternativeSTT l) (l_temperatureSet l) (l_nonStochTemp l)
    (l_nonStochOneF l) (l_pinkNoiseSet l) (l_reference l) (l_refType l) (l_temperature l)
    (l_IECTop l) (l_IECBottom l) (l_QuadTop l) (l_QuadBottom l) (l_current l) (l_anisotropy l)
    (l_flDriver l) (l_dlDriver l) (l_IDMITop l) (l_IDMIBottom l) (l_Hreserved l) (l_external l)
    (l_Oersted l) (l_Hdmi l) (l_nAlpha l) (l_nScale l) (l_nStd l) (l_nAxis l) (l_ofn l) (l_bfn
    l) (l_nsrc l) (l_ngen l) (l_rng l) (l_rpos l) (l_cache l).
Definition set_l_dipoleTop (v : tensor) (l : layer) : layer :=
  LY (l_id l) (l_mag l) (l_anis l) (l_Ms l) (l_thickness l) (l_cellVolume l) (l_cellSurface l)
    (l_demag l) (l_dipoleBottom l) v (l_damping l) (l_fieldLikeTorque l) (l_dampingLikeTorque l)
    (l_slon l) (l_beta l) (l_kappa l) (l_spinPol l) (l_includeSTT l) (l_includeSOT l)
    (l_dynamicSOT l) (l_alternativeSTT l) (l_temperatureSet l) (l_nonStochTemp l)
    (l_nonStochOneF l) (l_pinkNoiseSet l) (l_reference l) (l_refType l) (l_temperature l)
    (l_IECTop l) (l_IECBottom l) (l_QuadTop l) (l_QuadBottom l) (l_current l) (l_anisotropy l)
    (l_flDriver l) (l_dlDriver l) (l_IDMITop l) (l_IDMIBottom l) (l_Hreserved l) (l_external l)
    (l_Oersted l) (l_Hdmi l) (l_nAlpha l) (l_nScale l) (l_nStd l) (l_nAxis l) (l_ofn l) (l_bfn
    l) (l_nsrc l) (l_ngen l) (l_rng l) (l_rpos l) (l_cache l).
Definition set_l_damping (v : R) (l : layer) : layer :=
  LY (l_id l) (l_mag l) (l_anis l) (l_Ms l) (l_thickness l) (l_cellVolume l) (l_cellSurface l)
    (l_demag l) (l_dipoleBottom l) (l_dipoleTop l) v (l_fieldLikeTorque l) (l_dampingLikeTorque
    l) (l_slon l) (l_beta l) (l_kappa l) (l_spinPol l) (l_includeSTT l) (l_includeSOT l)
    (l_dynamicSOT l) (l_alternativeSTT l) (l_temperatureSet l) (l_nonStochTemp l)
    (l_nonStochOneF l) (l_pinkNoiseSet l) (l_reference l) (l_refType l) (l_temperature l)
    (l_IECTop l) (l_IECBottom l) (l_QuadTop l) (l_QuadBottom l) (l_current l) (l_anisotropy l)
    (l_flDriver l) (l_dlDriver l) (l_IDMITop l) (l_IDMIBottom l) (l_Hreserved l) (l_external l)
    (l_Oersted l) (l_Hdmi l) (l_nAlpha l) (l_nScale l) (l_nStd l) (l_nAxis l) (l_ofn l) (l_bfn
    l) (l_nsrc l) (l_ngen l) (l_rng l) (l_rpos l) (l_cache l).
Definition set_l_fieldLikeTorque (v : R) (l : layer) : layer :=
  LY (l_id l) (l_mag l) (l_anis l) (l_Ms l) (l_thickness l) (l_cellVolume l) (l_cellSurface l)
    (l_demag l) (l_dipoleBottom l) (l_dipoleTop l) (l_damping l) v (l_dampingLikeTorque l)
    (l_slon l) (l_beta l) (l_kappa l) (l_spinPol l) (l_includeSTT l) (l_includeSOT l)
    (l_dynamicSOT l) (l_alternativeSTT l) (l_temperatureSet l) (l_nonStochTemp l)
    (l_nonStochOneF l) (l_pinkNoiseSet l) (l_reference l) (l_refType l) (l_temperature l)
    (l_IECTop l) (l_IECBottom l) (l_QuadTop l) (l_QuadBottom l) (l_current l) (l_anisotropy l)
    (l_flDriver l) (l_dlDriver l) (l_IDMITop l) (l_IDMIBottom l) (l_Hreserved l) (l_external l)
    (l_Oersted l) (l_Hdmi l) (l_nAlpha l) (l_nScale l) (l_nStd l) (l_nAxis l) (l_ofn l) (l_bfn
    l) (l_nsrc l) (l_ngen l) (l_rng l) (l_rpos l) (l_cache l).
Definition set_l_dampingLikeTorque (v : R) (l : layer) : layer :=
  LY (l_id l) (l_mag l) (l_anis l) (l_Ms l) (l_thickness l) (l_cellVolume l) (l_cellSurface l)
    (l_demag l) (l_dipoleBottom l) (l_dipoleTop l) (l_damping l) (l_fieldLikeTorque l) v (l_slon
    l) (l_beta l) (l_kappa l) (l_spinPol l) (l_includeSTT l) (l_includeSOT l) (l_dynamicSOT l)
    (l_alternativeSTT l) (l_temperatureSet l) (l_nonStochTemp l) (l_nonStochOneF l)
    (l_pinkNoiseSet l) (l_reference l) (l_refType l) (l_temperature l) (l_IECTop l) (l_IECBottom
    l) (l_QuadTop l) (l_QuadBottom l) (l_current l) (l_anisotropy l) (l_flDriver l) (l_dlDriver
    l) (l_IDMITop l) (l_IDMIBottom l) (l_Hreserved l) (l_external l) (l_Oersted l) (l_Hdmi l)
    (l_nAlpha l) (l_nScale l) (l_nStd l) (l_nAxis l) (l_ofn l) (l_bfn l) (l_nsrc l) (l_ngen l)
    (l_rng l) (l_rpos l) (l_cache l).
Definition set_l_slon (v : R) (l : layer) : layer :=
  LY (l_id l) (l_mag l) (l_anis l) (l_Ms l) (l_thickness l) (l_cellVolume l) (l_cellSurface l)
    (l_demag l) (l_dipoleBottom l) (l_dipoleTop l) (l_damping l) (l_fieldLikeTorque l)
    (l_dampingLikeTorque l) v (l_beta l) (l_kappa l) (l_spinPol l) (l_includeSTT l)
    (l_includeSOT l) (l_dynamicSOT l) (l_alternativeSTT l) (l_temperatureSet l) (l_nonStochTemp
    l) (l_nonStochOneF l) (l_pinkNoiseSet l) (l_reference l) (l_refType l) (l_temperature l)
    (l_IECTop l) (l_IECBottom l) (l_QuadTop l) (l_QuadBottom l) (l_current l) (l_anisotropy l)
    (l_flDriver l) (l_dlDriver l) (l_IDMITop l) (l_IDMIBottom l) (l_Hreserved l) (l_external l)
    (l_Oersted l) (l_Hdmi l) (l_nAlpha l) (l_nScale l) (l_nStd l) (l_nAxis l) (l_ofn l) (l_bfn
    l) (l_nsrc l) (l_ngen l) (l_rng l) (l_rpos l) (l_cache l).
Definition set_l_beta (v : R) (l : layer) : layer :=
  LY (l_id l) (l_mag l) (l_anis l) (l_Ms l) (l_thickness l) (l_cellVolume l) (l_cellSurface l)
    (l_demag l) (l_dipoleBottom l) (l_dipoleTop l) (l_damping l) (l_fieldLikeTorque l)
    (l_dampingLikeTorque l) (l_slon l) v (l_kappa l) (l_spinPol l) (l_includeSTT l)
    (l_includeSOT l) (l_dynamicSOT l) (l_alternativeSTT l) (l_temperatureSet l) (l_nonStochTemp
    l) (l_nonStochOneF l) (l_pinkNoiseSet l) (l_reference l) (l_refType l) (l_temperature l)
    (l_IECTop l) (l_IECBottom l) (l_QuadTop l) (l_QuadBottom l) (l_current l) (l_anisotropy l)
    (l_flDriver l) (l_dlDriver l) (l_IDMITop l) (l_IDMIBottom l) (l_Hreserved l) (l_external l)
    (l_Oersted l) (l_Hdmi l) (l_nAlpha l) (l_nScale l) (l_nStd l) (l_nAxis l) (l_ofn l) (l_bfn
    l) (l_nsrc l) (l_ngen l) (l_rng l) (l_rpos l) (l_cache l).
Definition set_l_kappa (v : R) (l : layer) : layer :=
  LY (l_id l) (l_mag l) (l_anis l) (l_Ms l) (l_thickness l) (l_cellVolume l) (l_cellSurface l)
    (l_demag l) (l_dipoleBottom l) (l_dipoleTop l) (l_damping l) (l_fieldLikeTorque l)
    (l_dampingLikeTorque l) (l_slon l) (l_beta l) v (l_spinPol l) (l_includeSTT l) (l_includeSOT
    l) (l_dynamicSOT l) (l_alternativeSTT l) (l_temperatureSet l) (l_nonStochTemp l)
    (l_nonStochOneF l) (l_pinkNoiseSet l) (l_reference l) (l_refType l) (l_temperature l)
    (l_IECTop l) (l_IECBottom l) (l_QuadTop l) (l_QuadBottom l) (l_current l) (l_anisotropy l)
    (l_flDriver l) (l_dlDriver l) (l_IDMITop l) (l_IDMIBottom l) (l_Hreserved l) (l_external l)
    (l_Oersted l) (l_Hdmi l) (l_nAlpha l) (l_nScale l) (l_nStd l) (l_nAxis l) (l_ofn l) (l_bfn
    l) (l_nsrc l) (l_ngen l) (l_rng l) (l_rpos l) (l_cache l).
Definition set_l_spinPol (v : R) (l : layer) : layer :=
  LY (l_id l) (l_mag l) (l_anis l) (l_Ms l) (l_thickness l) (l_cellVolume l) (l_cellSurface l)
    (l_demag l) (l_dipoleBottom l) (l_dipoleTop l) (l_damping l) (l_fieldLikeTorque l)
    (l_dampingLikeTorque l) (l_slon l) (l_beta l) (l_kappa l) v (l_includeSTT l) (l_includeSOT
    l) (l_dynamicSOT l) (l_alternativeSTT l) (l_temperatureSet l) (l_nonStochTemp l)
    (l_nonStochOneF l) (l_pinkNoiseSet l) (l_reference l) (l_refType l) (l_temperature l)
    (l_IECTop l) (l_IECBottom l) (l_QuadTop l) (l_QuadBottom l) (l_current l) (l_anisotropy l)
    (l_flDriver l) (l_dlDriver l) (l_IDMITop l) (l_IDMIBottom l) (l_Hreserved l) (l_external l)
    (l_Oersted l) (l_Hdmi l) (l_nAlpha l) (l_nScale l) (l_nStd l) (l_nAxis l) (l_ofn l) (l_bfn
    l) (l_nsrc l) (l_ngen l) (l_rng l) (l_rpos l) (l_cache l).
Definition set_l_includeSTT (v : bool) (l : layer) : layer :=
  LY (l_id l) (l_mag l) (l_anis l) (l_Ms l) (l_thickness l) (l_cellVolume l) (l_cellSurface l)
    (l_demag l) (l_dipoleBottom l) (l_dipoleTop l) (l_damping l) (l_fieldLikeTorque l)
    (l_dampingLikeTorque l) (l_slon l) (l_beta l) (l_kappa l) (l_spinPol l) v (l_includeSOT l)
    (l_dynamicSOT l) (l_alternativeSTT l) (l_temperatureSet l) (l_nonStochTemp l)
    (l_nonStochOneF l) (l_pinkNoiseSet l) (l_reference l) (l_refType l) (l_temperature l)
    (l_IECTop l) (l_IECBottom l) (l_QuadTop l) (l_QuadBottom l) (l_current l) (l_anisotropy l)
    (l_flDriver l) (l_dlDriver l) (l_IDMITop l) (l_IDMIBottom l) (l_Hreserved l) (l_external l)
    (l_Oersted l) (l_Hdmi l) (l_nAlpha l) (l_nScale l) (l_nStd l) (l_nAxis l) (l_ofn l) (l_bfn
    l) (l_nsrc l) (l_ngen l) (l_rng l) (l_rpos l) (l_cache l).
Definition set_l_includeSOT (v : bool) (l : layer) : layer :=
  LY (l_id l) (l_mag l) (l_anis l) (l_Ms l) (l_thickness l) (l_cellVolume l) (l_cellSurface l)
    (l_demag l) (l_dipoleBottom l) (l_dipoleTop l) (l_damping l) (l_fieldLikeTorque l)
    (l_dampingLikeTorque l) (l_slon l) (l_beta l) (l_kappa l) (l_spinPol l) (l_includeSTT l) v
    (l_dynamicSOT l) (l_alternativeSTT l) (l_temperatureSet l) (l_nonStochTemp l)
    (l_nonStochOneF l) (l_pinkNoiseSet l) (l_reference l) (l_refType l) (l_temperature l)
    (l_IECTop l) (l_IECBottom l) (l_QuadTop l) (l_QuadBottom l) (l_current l) (l_anisotropy l)
    (l_flDriver l) (l_dlDriver l) (l_IDMITop l) (l_IDMIBottom l) (l_Hreserved l) (l_external l)
    (l_Oersted l) (l_Hdmi l) (l_nAlpha l) (l_nScale l) (l_nStd l) (l_nAxis l) (l_ofn l) (l_bfn
    l) (l_nsrc l) (l_ngen l) (l_rng l) (l_rpos l) (l_cache l).
Definition set_l_dynamicSOT (v : bool) (l : layer) : layer :=
  LY (l_id l) (l_mag l) (l_anis l) (l_Ms l) (l_thickness l) (l_cellVolume l) (l_cellSurface l)
    (l_demag l) (l_dipoleBottom l) (l_dipoleTop l) (l_damping l) (l_fieldLikeTorque l)
    (l_dampingLikeTorque l) (l_slon l) (l_beta l) (l_kappa l) (l_spinPol l) (l_includeSTT l)
    (l_includeSOT l) v (l_alternativeSTT l) (l_temperatureSet l) (l_nonStochTemp l)
    (l_nonStochOneF l) (l_pinkNoiseSet l) (l_reference l) (l_refType l) (l_temperature l)
    (l_IECTop l) (l_IECBottom l) (l_QuadTop l) (l_QuadBottom l) (l_current l) (l_anisotropy l)
    (l_flDriver l) (l_dlDriver l) (l_IDMITop l) (l_IDMIBottom l) (l_Hreserved l) (l_external l)
    (l_Oersted l) (l_Hdmi l) (l_nAlpha l) (l_nScale l) (l_nStd l) (l_nAxis l) (l_ofn l) (l_bfn
    l) (l_nsrc l) (l_ngen l) (l_rng l) (l_rpos l) (l_cache l).
Definition set_l_alternativeSTT (v : bool) (l : layer) : layer :=
  LY (l_id l) (l_mag l) (l_anis l) (l_Ms l) (l_thickness l) (l_cellVolume l) (l_cellSurface l)
    (l_demag l) (l_dipoleBottom l) (l_dipoleTop l) (l_damping l) (l_fieldLikeTorque l)
    (l_dampingLikeTorque l) (l_slon l) (l_beta l) (l_kappa l) (l_spinPol l) (l_includeSTT l)
    (l_includeSOT l) (l_dynamicSOT l) v (l_temperatureSet l) (l_nonStochTemp l) (l_nonStochOneF
    l) (l_pinkNoiseSet l) (l_reference l) (l_refType l) (l_temperature l) (l_IECTop l)
    (l_IECBottom l) (l_QuadTop l) (l_QuadBottom l) (l_current l) (l_anisotropy l) (l_flDriver l)
    (l_dlDriver l) (l_IDMITop l) (l_IDMIBottom l) (l_Hreserved l) (l_external l) (l_Oersted l)
    (l_Hdmi l) (l_nAlpha l) (l_nScale l) (l_nStd l) (l_nAxis l) (l_ofn l) (l_bfn l) (l_nsrc l)
    (l_ngen l) (l_rng l) (l_rpos l) (l_cache l).
Definition set_l_temperatureSet (v : bool) (l : layer) : layer :=
  LY (l_id l) (l_mag l) (l_anis l) (l_Ms l) (l_thickness l) (l_cellVolume l) (l_cellSurface l)
    (l_demag l) (l_dipoleBottom l) (l_dipoleTop l) (l_damping l) (l_fieldLikeTorque l)
    (l_dampingLikeTorque l) (l_slon l) (l_beta l) (l_kappa l) (l_spinPol l) (l_includeSTT l)
    (l_includeSOT l) (l_dynamicSOT l) (l_alternativeSTT l) v (l_nonStochTemp l) (l_nonStochOneF
    l) (l_pinkNoiseSet l) (l_reference l) (l_refType l) (l_temperature l) (l_IECTop l)
    (l_IECBottom l) (l_QuadTop l) (l_QuadBottom l) (l_current l) (l_anisotropy l) (l_flDriver l)
    (l_dlDriver l) (l_IDMITop l) (l_IDMIBottom l) (l_Hreserved l) (l_external l) (l_Oersted l)
    (l_Hdmi l) (l_nAlpha l) (l_nScale l) (l_nStd l) (l_nAxis l) (l_ofn l) (l_bfn l) (l_nsrc l)
    (l_ngen l) (l_rng l) (l_rpos l) (l_cache l).
Definition set_l_nonStochTemp (v : bool) (l : layer) : layer :=
  LY (l_id l) (l_mag l) (l_anis l) (l_Ms l) (l_thickness l) (l_cellVolume l) (l_cellSurface l)
    (l_demag l) (l_dipoleBottom l) (l_dipoleTop l) (l_damping l) (l_fieldLikeTorque l)
    (l_dampingLikeTorque l) (l_slon l) (l_beta l) (l_kappa l) (l_spinPol l) (l_includeSTT l)
    (l_includeSOT l) (l_dynamicSOT l) (l_alternativeSTT l) (l_temperatureSet l) v
    (l_nonStochOneF l) (l_pinkNoiseSet l) (l_reference l) (l_refType l) (l_temperature l)
    (l_IECTop l) (l_IECBottom l) (l_QuadTop l) (l_QuadBottom l) (l_current l) (l_anisotropy l)
    (l_flDriver l) (l_dlDriver l) (l_IDMITop l) (l_IDMIBottom l) (l_Hreserved l) (l_external l)
    (l_Oersted l) (l_Hdmi l) (l_nAlpha l) (l_nScale l) (l_nStd l) (l_nAxis l) (l_ofn l) (l_bfn
    l) (l_nsrc l) (l_ngen l) (l_rng l) (l_rpos l) (l_cache l).
Definition set_l_nonStochOneF (v : bool) (l : layer) : layer :=
  LY (l_id l) (l_mag l) (l_anis l) (l_Ms l) (l_thickness l) (l_cellVolume l) (l_cellSurface l)
    (l_demag l) (l_dipoleBottom l) (l_dipoleTop l) (l_damping l) (l_fieldLikeTorque l)
    (l_dampingLikeTorque l) (l_slon l) (l_beta l) (l_kappa l) (l_spinPol l) (l_includeSTT l)
    (l_includeSOT l) (l_dynamicSOT l) (l_alternativeSTT l) (l_temperatureSet l) (l_nonStochTemp
    l) v (l_pinkNoiseSet l) (l_reference l) (l_refType l) (l_temperature l) (l_IECTop l)
    (l_IECBottom l) (l_QuadTop l) (l_QuadBottom l) (l_current l) (l_anisotropy l) (l_flDriver l)
    (l_dlDriver l) (l_IDMITop l) (l_IDMIBottom l) (l_Hreserved l) (l_external l) (l_Oersted l)
    (l_Hdmi l) (l_nAlpha l) (l_nScale l) (l_nStd l) (l_nAxis l) (l_ofn l) (l_bfn l) (l_nsrc l)
    (l_ngen l) (l_rng l) (l_rpos l) (l_cache l).
Definition set_l_pinkNoiseSet (v : bool) (l : layer) : layer :=
  LY (l_id l) (l_mag l) (l_anis l) (l_Ms l) (l_thickness l) (l_cellVolume l) (l_cellSurface l)
    (l_demag l) (l_dipoleBottom l) (l_dipoleTop l) (l_damping l) (l_fieldLikeTorque l)
    (l_dampingLikeTorque l) (l_slon l) (l_beta l) (l_kappa l) (l_spinPol l) (l_includeSTT l)
    (l_includeSOT l) (l_dynamicSOT l) (l_alternativeSTT l) (l_temperatureSet l) (l_nonStochTemp
    l) (l_nonStochOneF l) v (l_reference l) (l_refType l) (l_temperature l) (l_IECTop l)
    (l_IECBottom l) (l_QuadTop l) (l_QuadBottom l) (l_current l) (l_anisotropy l) (l_flDriver l)
    (l_dlDriver l) (l_IDMITop l) (l_IDMIBottom l) (l_Hreserved l) (l_external l) (l_Oersted l)
    (l_Hdmi l) (l_nAlpha l) (l_nScale l) (l_nStd l) (l_nAxis l) (l_ofn l) (l_bfn l) (l_nsrc l)
    (l_ngen l) (l_rng l) (l_rpos l) (l_cache l).
Definition set_l_reference (v : cvec) (l : layer) : layer :=
  LY (l_id l) (l_mag l) (l_anis l) (l_Ms l) (l_thickness l) (l_cellVolume l) (l_cellSurface l)
    (l_demag l) (l_dipoleBottom l) (l_dipoleTop l) (l_damping l) (l_fieldLikeTorque l)
    (l_dampingLikeTorque l) (l_slon l) (l_beta l) (l_kappa l) (l_spinPol l) (l_includeSTT l)
    (l_includeSOT l) (l_dynamicSOT l) (l_alternativeSTT l) (l_temperatureSet l) (l_nonStochTemp
    l) (l_nonStochOneF l) (l_pinkNoiseSet l) v (l_refType l) (l_temperature l) (l_IECTop l)
    (l_IECBottom l) (l_QuadTop l) (l_QuadBottom l) (l_current l) (l_anisotropy l) (l_flDriver l)
    (l_dlDriver l) (l_IDMITop l) (l_IDMIBottom l) (l_Hreserved l) (l_external l) (l_Oersted l)
    (l_Hdmi l) (l_nAlpha l) (l_nScale l) (l_nStd l) (l_nAxis l) (l_ofn l) (l_bfn l) (l_nsrc l)
    (l_ngen l) (l_rng l) (l_rpos l) (l_cache l).
Definition set_l_refType (v : reference) (l : layer) : layer :=
  LY (l_id l) (l_mag l) (l_anis l) (l_Ms l) (l_thickness l) (l_cellVolume l) (l_cellSurface l)
    (l_demag l) (l_dipoleBottom l) (l_dipoleTop l) (l_damping l) (l_fieldLikeTorque l)
    (l_dampingLikeTorque l) (l_slon l) (l_beta l) (l_kappa l) (l_spinPol l) (l_includeSTT l)
    (l_includeSOT l) (l_dynamicSOT l) (l_alternativeSTT l) (l_temperatureSet l) (l_nonStochTemp
    l) (l_nonStochOneF l) (l_pinkNoiseSet l) (l_reference l) v (l_temperature l) (l_IECTop l)
    (l_IECBottom l) (l_QuadTop l) (l_QuadBottom l) (l_current l) (l_anisotropy l) (l_flDriver l)
    (l_dlDriver l) (l_IDMITop l) (l_IDMIBottom l) (l_Hreserved l) (l_external l) (l_Oersted l)
    (l_Hdmi l) (l_nAlpha l) (l_nScale l) (l_nStd l) (l_nAxis l) (l_ofn l) (l_bfn l) (l_nsrc l)
    (l_ngen l) (l_rng l) (l_rpos l) (l_cache l).
Definition set_l_temperature (v : sdriver) (l : layer) : layer :=
  LY (l_id l) (l_mag l) (l_anis l) (l_Ms l) (l_thickness l) (l_cellVolume l) (l_cellSurface l)
    (l_demag l) (l_dipoleBottom l) (l_dipoleTop l) (l_damping l) (l_fieldLikeTorque l)
    (l_dampingLikeTorque l) (l_slon l) (l_beta l) (l_kappa l) (l_spinPol l) (l_includeSTT l)
    (l_includeSOT l) (l_dynamicSOT l) (l_alternativeSTT l) (l_temperatureSet l) (l_nonStochTemp
    l) (l_nonStochOneF l) (l_pinkNoiseSet l) (l_reference l) (l_refType l) v (l_IECTop l)
    (l_IECBottom l) (l_QuadTop l) (l_QuadBottom l) (l_current l) (l_anisotropy l) (l_flDriver l)
    (l_dlDriver l) (l_IDMITop l) (l_IDMIBottom l) (l_Hreserved l) (l_external l) (l_Oersted l)
    (l_Hdmi l) (l_nAlpha l) (l_nScale l) (l_nStd l) (l_nAxis l) (l_ofn l) (l_bfn l) (l_nsrc l)
    (l_ngen l) (l_rng l) (l_rpos l) (l_cache l).
Definition set_l_IECTop (v : sdriver) (l : layer) : layer :=
  LY (l_id l) (l_mag l) (l_anis l) (l_Ms l) (l_thickness l) (l_cellVolume l) (l_cellSurface l)
    (l_demag l) (l_dipoleBottom l) (l_dipoleTop l) (l_damping l) (l_fieldLikeTorque l)
    (l_dampingLikeTorque l) (l_slon l) (l_beta l) (l_kappa l) (l_spinPol l) (l_includeSTT l)
    (l_includeSOT l) (l_dynamicSOT l) (l_alternativeSTT l) (l_temperatureSet l) (l_nonStochTemp
    l) (l_nonStochOneF l) (l_pinkNoiseSet l) (l_reference l) (l_refType l) (l_temperature l) v
    (l_IECBottom l) (l_QuadTop l) (l_QuadBottom l) (l_current l) (l_anisotropy l) (l_flDriver l)
    (l_dlDriver l) (l_IDMITop l) (l_IDMIBottom l) (l_Hreserved l) (l_external l) (l_Oersted l)
    (l_Hdmi l) (l_nAlpha l) (l_nScale l) (l_nStd l) (l_nAxis l) (l_ofn l) (l_bfn l) (l_nsrc l)
    (l_ngen l) (l_rng l) (l_rpos l) (l_cache l).
Definition set_l_IECBottom (v : sdriver) (l : layer) : layer :=
  LY (l_id l) (l_mag l) (l_anis l) (l_Ms l) (l_thickness l) (l_cellVolume l) (l_cellSurface l)
    (l_demag l) (l_dipoleBottom l) (l_dipoleTop l) (l_damping l) (l_fieldLikeTorque l)
    (l_dampingLikeTorque l) (l_slon l) (l_beta l) (l_kappa l) (l_spinPol l) (l_includeSTT l)
    (l_includeSOT l) (l_dynamicSOT l) (l_alternativeSTT l) (l_temperatureSet l) (l_nonStochTemp
    l) (l_nonStochOneF l) (l_pinkNoiseSet l) (l_reference l) (l_refType l) (l_temperature l)
    (l_IECTop l) v (l_QuadTop l) (l_QuadBottom l) (l_current l) (l_anisotropy l) (l_flDriver l)
    (l_dlDriver l) (l_IDMITop l) (l_IDMIBottom l) (l_Hreserved l) (l_external l) (l_Oersted l)
    (l_Hdmi l) (l_nAlpha l) (l_nScale l) (l_nStd l) (l_nAxis l) (l_ofn l) (l_bfn l) (l_nsrc l)
    (l_ngen l) (l_rng l) (l_rpos l) (l_cache l).
Definition set_l_QuadTop (v : sdriver) (l : layer) : layer :=
  LY (l_id l) (l_mag l) (l_anis l) (l_Ms l) (l_thickness l) (l_cellVolume l) (l_cellSurface l)
    (l_demag l) (l_dipoleBottom l) (l_dipoleTop l) (l_damping l) (l_fieldLikeTorque l)
    (l_dampingLikeTorque l) (l_slon l) (l_beta l) (l_kappa l) (l_spinPol l) (l_includeSTT l)
    (l_includeSOT l) (l_dynamicSOT l) (l_alternativeSTT l) (l_temperatureSet l) (l_nonStochTemp
    l) (l_nonStochOneF l) (l_pinkNoiseSet l) (l_reference l) (l_refType l) (l_temperature l)
    (l_IECTop l) (l_IECBottom l) v (l_QuadBottom l) (l_current l) (l_anisotropy l) (l_flDriver
    l) (l_dlDriver l) (l_IDMITop l) (l_IDMIBottom l) (l_Hreserved l) (l_external l) (l_Oersted
    l) (l_Hdmi l) (l_nAlpha l) (l_nScale l) (l_nStd l) (l_nAxis l) (l_ofn l) (l_bfn l) (l_nsrc
    l) (l_ngen l) (l_rng l) (l_rpos l) (l_cache l).
Definition set_l_QuadBottom (v : sdriver) (l : layer) : layer :=
  LY (l_id l) (l_mag l) (l_anis l) (l_Ms l) (l_thickness l) (l_cellVolume l) (l_cellSurface l)
    (l_demag l) (l_dipoleBottom l) (l_dipoleTop l) (l_damping l) (l_fieldLikeTorque l)
    (l_dampingLikeTorque l) (l_slon l) (l_beta l) (l_kappa l) (l_spinPol l) (l_includeSTT l)
    (l_includeSOT l) (l_dynamicSOT l) (l_alternativeSTT l) (l_temperatureSet l) (l_nonStochTemp
    l) (l_nonStochOneF l) (l_pinkNoiseSet l) (l_reference l) (l_refType l) (l_temperature l)
    (l_IECTop l) (l_IECBottom l) (l_QuadTop l) v (l_current l) (l_anisotropy l) (l_flDriver l)
    (l_dlDriver l) (l_IDMITop l) (l_IDMIBottom l) (l_Hreserved l) (l_external l) (l_Oersted l)
    (l_Hdmi l) (l_nAlpha l) (l_nScale l) (l_nStd l) (l_nAxis l) (l_ofn l) (l_bfn l) (l_nsrc l)
    (l_ngen l) (l_rng l) (l_rpos l) (l_cache l).
Definition set_l_current (v : sdriver) (l : layer) : layer :=
  LY (l_id l) (l_mag l) (l_anis l) (l_Ms l) (l_thickness l) (l_cellVolume l) (l_cellSurface l)
    (l_demag l) (l_dipoleBottom l) (l_dipoleTop l) (l_damping l) (l_fieldLikeTorque l)
    (l_dampingLikeTorque l) (l_slon l) (l_beta l) (l_kappa l) (l_spinPol l) (l_includeSTT l)
    (l_includeSOT l) (l_dynamicSOT l) (l_alternativeSTT l) (l_temperatureSet l) (l_nonStochTemp
    l) (l_nonStochOneF l) (l_pinkNoiseSet l) (l_reference l) (l_refType l) (l_temperature l)
    (l_IECTop l) (l_IECBottom l) (l_QuadTop l) (l_QuadBottom l) v (l_anisotropy l) (l_flDriver
    l) (l_dlDriver l) (l_IDMITop l) (l_IDMIBottom l) (l_Hreserved l) (l_external l) (l_Oersted
    l) (l_Hdmi l) (l_nAlpha l) (l_nScale l) (l_nStd l) (l_nAxis l) (l_ofn l) (l_bfn l) (l_nsrc
    l) (l_ngen l) (l_rng l) (l_rpos l) (l_cache l).
Definition set_l_anisotropy (v : sdriver) (l : layer) : layer :=
  LY (l_id l) (l_mag l) (l_anis l) (l_Ms l) (l_thickness l) (l_cellVolume l) (l_cellSurface l)
    (l_demag l) (l_dipoleBottom l) (l_dipoleTop l) (l_damping l) (l_fieldLikeTorque l)
    (l_dampingLikeTorque l) (l_slon l) (l_beta l) (l_kappa l) (l_spinPol l) (l_includeSTT l)
    (l_includeSOT l) (l_dynamicSOT l) (l_alternativeSTT l) (l_temperatureSet l) (l_nonStochTemp
    l) (l_nonStochOneF l) (l_pinkNoiseSet l) (l_reference l) (l_refType l) (l_temperature l)
    (l_IECTop l) (l_IECBottom l) (l_QuadTop l) (l_QuadBottom l) (l_current l) v (l_flDriver l)
    (l_dlDriver l) (l_IDMITop l) (l_IDMIBottom l) (l_Hreserved l) (l_external l) (l_Oersted l)
    (l_Hdmi l) (l_nAlpha l) (l_nScale l) (l_nStd l) (l_nAxis l) (l_ofn l) (l_bfn l) (l_nsrc l)
    (l_ngen l) (l_rng l) (l_rpos l) (l_cache l).
Definition set_l_flDriver (v : sdriver) (l : layer) : layer :=
  LY (l_id l) (l_mag l) (l_anis l) (l_Ms l) (l_thickness l) (l_cellVolume l) (l_cellSurface l)
    (l_demag l) (l_dipoleBottom l) (l_dipoleTop l) (l_damping l) (l_fieldLikeTorque l)
    (l_dampingLikeTorque l) (l_slon l) (l_beta l) (l_kappa l) (l_spinPol l) (l_includeSTT l)
    (l_includeSOT l) (l_dynamicSOT l) (l_alternativeSTT l) (l_temperatureSet l) (l_nonStochTemp
    l) (l_nonStochOneF l) (l_pinkNoiseSet l) (l_reference l) (l_refType l) (l_temperature l)
    (l_IECTop l) (l_IECBottom l) (l_QuadTop l) (l_QuadBottom l) (l_current l) (l_anisotropy l) v
    (l_dlDriver l) (l_IDMITop l) (l_IDMIBottom l) (l_Hreserved l) (l_external l) (l_Oersted l)
    (l_Hdmi l) (l_nAlpha l) (l_nScale l) (l_nStd l) (l_nAxis l) (l_ofn l) (l_bfn l) (l_nsrc l)
    (l_ngen l) (l_rng l) (l_rpos l) (l_cache l).
Definition set_l_dlDriver (v : sdriver) (l : layer) : layer :=
  LY (l_id l) (l_mag l) (l_anis l) (l_Ms l) (l_thickness l) (l_cellVolume l) (l_cellSurface l)
    (l_demag l) (l_dipoleBottom l) (l_dipoleTop l) (l_damping l) (l_fieldLikeTorque l)
    (l_dampingLikeTorque l) (l_slon l) (l_beta l) (l_kappa l) (l_spinPol l) (l_includeSTT l)
    (l_includeSOT l) (l_dynamicSOT l) (l_alternativeSTT l) (l_temperatureSet l) (l_nonStochTemp
    l) (l_nonStochOneF l) (l_pinkNoiseSet l) (l_reference l) (l_refType l) (l_temperature l)
    (l_IECTop l) (l_IECBottom l) (l_QuadTop l) (l_QuadBottom l) (l_current l) (l_anisotropy l)
    (l_flDriver l) v (l_IDMITop l) (l_IDMIBottom l) (l_Hreserved l) (l_external l) (l_Oersted l)
    (l_Hdmi l) (l_nAlpha l) (l_nScale l) (l_nStd l) (l_nAxis l) (l_ofn l) (l_bfn l) (l_nsrc l)
    (l_ngen l) (l_rng l) (l_rpos l) (l_cache l).
Definition set_l_IDMITop (v : adriver) (l : layer) : layer :=
  LY (l_id l) (l_mag l) (l_anis l) (l_Ms l) (l_thickness l) (l_cellVolume l) (l_cellSurface l)
    (l_demag l) (l_dipoleBottom l) (l_dipoleTop l) (l_damping l) (l_fieldLikeTorque l)
    (l_dampingLikeTorque l) (l_slon l) (l_beta l) (l_kappa l) (l_spinPol l) (l_includeSTT l)
    (l_includeSOT l) (l_dynamicSOT l) (l_alternativeSTT l) (l_temperatureSet l) (l_nonStochTemp
    l) (l_nonStochOneF l) (l_pinkNoiseSet l) (l_reference l) (l_refType l) (l_temperature l)
    (l_IECTop l) (l_IECBottom l) (l_QuadTop l) (l_QuadBottom l) (l_current l) (l_anisotropy l)
    (l_flDriver l) (l_dlDriver l) v (l_IDMIBottom l) (l_Hreserved l) (l_external l) (l_Oersted
    l) (l_Hdmi l) (l_nAlpha l) (l_nScale l) (l_nStd l) (l_nAxis l) (l_ofn l) (l_bfn l) (l_nsrc
    l) (l_ngen l) (l_rng l) (l_rpos l) (l_cache l).
Definition set_l_IDMIBottom (v : adriver) (l : layer) : layer :=
  LY (l_id l) (l_mag l) (l_anis l) (l_Ms l) (l_thickness l) (l_cellVolume l) (l_cellSurface l)
    (l_demag l) (l_dipoleBottom l) (l_dipoleTop l) (l_damping l) (l_fieldLikeTorque l)
    (l_dampingLikeTorque l) (l_slon l) (l_beta l) (l_kappa l) (l_spinPol l) (l_includeSTT l)
    (l_includeSOT l) (l_dynamicSOT l) (l_alternativeSTT l) (l_temperatureSet l) (l_nonStochTemp
    l) (l_nonStochOneF l) (l_pinkNoiseSet l) (l_reference l) (l_refType l) (l_temperature l)
    (l_IECTop l) (l_IECBottom l) (l_QuadTop l) (l_QuadBottom l) (l_current l) (l_anisotropy l)
    (l_flDriver l) (l_dlDriver l) (l_IDMITop l) v (l_Hreserved l) (l_external l) (l_Oersted l)
    (l_Hdmi l) (l_nAlpha l) (l_nScale l) (l_nStd l) (l_nAxis l) (l_ofn l) (l_bfn l) (l_nsrc l)
    (l_ngen l) (l_rng l) (l_rpos l) (l_cache l).
Definition set_l_Hreserved (v : adriver) (l : layer) : layer :=
  LY (l_id l) (l_mag l) (l_anis l) (l_Ms l) (l_thickness l) (l_cellVolume l) (l_cellSurface l)
    (l_demag l) (l_dipoleBottom l) (l_dipoleTop l) (l_damping l) (l_fieldLikeTorque l)
    (l_dampingLikeTorque l) (l_slon l) (l_beta l) (l_kappa l) (l_spinPol l) (l_includeSTT l)
    (l_includeSOT l) (l_dynamicSOT l) (l_alternativeSTT l) (l_temperatureSet l) (l_nonStochTemp
    l) (l_nonStochOneF l) (l_pinkNoiseSet l) (l_reference l) (l_refType l) (l_temperature l)
    (l_IECTop l) (l_IECBottom l) (l_QuadTop l) (l_QuadBottom l) (l_current l) (l_anisotropy l)
    (l_flDriver l) (l_dlDriver l) (l_IDMITop l) (l_IDMIBottom l) v (l_external l) (l_Oersted l)
    (l_Hdmi l) (l_nAlpha l) (l_nScale l) (l_nStd l) (l_nAxis l) (l_ofn l) (l_bfn l) (l_nsrc l)
    (l_ngen l) (l_rng l) (l_rpos l) (l_cache l).
Definition set_l_external (v : adriver) (l : layer) : layer :=
  LY (l_id l) (l_mag l) (l_anis l) (l_Ms l) (l_thickness l) (l_cellVolume l) (l_cellSurface l)
    (l_demag l) (l_dipoleBottom l) (l_dipoleTop l) (l_damping l) (l_fieldLikeTorque l)
    (l_dampingLikeTorque l) (l_slon l) (l_beta l) (l_kappa l) (l_spinPol l) (l_includeSTT l)
    (l_includeSOT l) (l_dynamicSOT l) (l_alternativeSTT l) (l_temperatureSet l) (l_nonStochTemp
    l) (l_nonStochOneF l) (l_pinkNoiseSet l) (l_reference l) (l_refType l) (l_temperature l)
    (l_IECTop l) (l_IECBottom l) (l_QuadTop l) (l_QuadBottom l) (l_current l) (l_anisotropy l)
    (l_flDriver l) (l_dlDriver l) (l_IDMITop l) (l_IDMIBottom l) (l_Hreserved l) v (l_Oersted l)
    (l_Hdmi l) (l_nAlpha l) (l_nScale l) (l_nStd l) (l_nAxis l) (l_ofn l) (l_bfn l) (l_nsrc l)
    (l_ngen l) (l_rng l) (l_rpos l) (l_cache l).
Definition set_l_Oersted (v : adriver) (l : layer) : layer :=
  LY (l_id l) (l_mag l) (l_anis l) (l_Ms l) (l_thickness l) (l_cellVolume l) (l_cellSurface l)
    (l_demag l) (l_dipoleBottom l) (l_dipoleTop l) (l_damping l) (l_fieldLikeTorque l)
    (l_dampingLikeTorque l) (l_slon l) (l_beta l) (l_kappa l) (l_spinPol l) (l_includeSTT l)
    (l_includeSOT l) (l_dynamicSOT l) (l_alternativeSTT l) (l_temperatureSet l) (l_nonStochTemp
    l) (l_nonStochOneF l) (l_pinkNoiseSet l) (l_reference l) (l_refType l) (l_temperature l)
    (l_IECTop l) (l_IECBottom l) (l_QuadTop l) (l_QuadBottom l) (l_current l) (l_anisotropy l)
    (l_flDriver l) (l_dlDriver l) (l_IDMITop l) (l_IDMIBottom l) (l_Hreserved l) (l_external l)
    v (l_Hdmi l) (l_nAlpha l) (l_nScale l) (l_nStd l) (l_nAxis l) (l_ofn l) (l_bfn l) (l_nsrc l)
    (l_ngen l) (l_rng l) (l_rpos l) (l_cache l).
Definition set_l_Hdmi (v : adriver) (l : layer) : layer :=
  LY (l_id l) (l_mag l) (l_anis l) (l_Ms l) (l_thickness l) (l_cellVolume l) (l_cellSurface l)
    (l_demag l) (l_dipoleBottom l) (l_dipoleTop l) (l_damping l) (l_fieldLikeTorque l)
    (l_dampingLikeTorque l) (l_slon l) (l_beta l) (l_kappa l) (l_spinPol l) (l_includeSTT l)
    (l_includeSOT l) (l_dynamicSOT l) (l_alternativeSTT l) (l_temperatureSet l) (l_nonStochTemp
    l) (l_nonStochOneF l) (l_pinkNoiseSet l) (l_reference l) (l_refType l) (l_temperature l)
    (l_IECTop l) (l_IECBottom l) (l_QuadTop l) (l_QuadBottom l) (l_current l) (l_anisotropy l)
    (l_flDriver l) (l_dlDriver l) (l_IDMITop l) (l_IDMIBottom l) (l_Hreserved l) (l_external l)
    (l_Oersted l) v (l_nAlpha l) (l_nScale l) (l_nStd l) (l_nAxis l) (l_ofn l) (l_bfn l) (l_nsrc
    l) (l_ngen l) (l_rng l) (l_rpos l) (l_cache l).
Definition set_l_nAlpha (v : R) (l : layer) : layer :=
  LY (l_id l) (l_mag l) (l_anis l) (l_Ms l) (l_thickness l) (l_cellVolume l) (l_cellSurface l)
    (l_demag l) (l_dipoleBottom l) (l_dipoleTop l) (l_damping l) (l_fieldLikeTorque l)
    (l_dampingLikeTorque l) (l_slon l) (l_beta l) (l_kappa l) (l_spinPol l) (l_includeSTT l)
    (l_includeSOT l) (l_dynamicSOT l) (l_alternativeSTT l) (l_temperatureSet l) (l_nonStochTemp
    l) (l_nonStochOneF l) (l_pinkNoiseSet l) (l_reference l) (l_refType l) (l_temperature l)
    (l_IECTop l) (l_IECBottom l) (l_QuadTop l) (l_QuadBottom l) (l_current l) (l_anisotropy l)
    (l_flDriver l) (l_dlDriver l) (l_IDMITop l) (l_IDMIBottom l) (l_Hreserved l) (l_external l)
    (l_Oersted l) (l_Hdmi l) v (l_nScale l) (l_nStd l) (l_nAxis l) (l_ofn l) (l_bfn l) (l_nsrc
    l) (l_ngen l) (l_rng l) (l_rpos l) (l_cache l).
Definition set_l_nScale (v : R) (l : layer) : layer :=
  LY (l_id l) (l_mag l) (l_anis l) (l_Ms l) (l_thickness l) (l_cellVolume l) (l_cellSurface l)
    (l_demag l) (l_dipoleBottom l) (l_dipoleTop l) (l_damping l) (l_fieldLikeTorque l)
    (l_dampingLikeTorque l) (l_slon l) (l_beta l) (l_kappa l) (l_spinPol l) (l_includeSTT l)
    (l_includeSOT l) (l_dynamicSOT l) (l_alternativeSTT l) (l_temperatureSet l) (l_nonStochTemp
    l) (l_nonStochOneF l) (l_pinkNoiseSet l) (l_reference l) (l_refType l) (l_temperature l)
    (l_IECTop l) (l_IECBottom l) (l_QuadTop l) (l_QuadBottom l) (l_current l) (l_anisotropy l)
    (l_flDriver l) (l_dlDriver l) (l_IDMITop l) (l_IDMIBottom l) (l_Hreserved l) (l_external l)
    (l_Oersted l) (l_Hdmi l) (l_nAlpha l) v (l_nStd l) (l_nAxis l) (l_ofn l) (l_bfn l) (l_nsrc
    l) (l_ngen l) (l_rng l) (l_rpos l) (l_cache l).
Definition set_l_nStd (v : R) (l : layer) : layer :=
  LY (l_id l) (l_mag l) (l_anis l) (l_Ms l) (l_thickness l) (l_cellVolume l) (l_cellSurface l)
    (l_demag l) (l_dipoleBottom l) (l_dipoleTop l) (l_damping l) (l_fieldLikeTorque l)
    (l_dampingLikeTorque l) (l_slon l) (l_beta l) (l_kappa l) (l_spinPol l) (l_includeSTT l)
    (l_includeSOT l) (l_dynamicSOT l) (l_alternativeSTT l) (l_temperatureSet l) (l_nonStochTemp
    l) (l_nonStochOneF l) (l_pinkNoiseSet l) (l_reference l) (l_refType l) (l_temperature l)
    (l_IECTop l) (l_IECBottom l) (l_QuadTop l) (l_QuadBottom l) (l_current l) (l_anisotropy l)
    (l_flDriver l) (l_dlDriver l) (l_IDMITop l) (l_IDMIBottom l) (l_Hreserved l) (l_external l)
    (l_Oersted l) (l_Hdmi l) (l_nAlpha l) (l_nScale l) v (l_nAxis l) (l_ofn l) (l_bfn l) (l_nsrc
    l) (l_ngen l) (l_rng l) (l_rpos l) (l_cache l).
Definition set_l_nAxis (v : axis) (l : layer) : layer :=
  LY (l_id l) (l_mag l) (l_anis l) (l_Ms l) (l_thickness l) (l_cellVolume l) (l_cellSurface l)
    (l_demag l) (l_dipoleBottom l) (l_dipoleTop l) (l_damping l) (l_fieldLikeTorque l)
    (l_dampingLikeTorque l) (l_slon l) (l_beta l) (l_kappa l) (l_spinPol l) (l_includeSTT l)
    (l_includeSOT l) (l_dynamicSOT l) (l_alternativeSTT l) (l_temperatureSet l) (l_nonStochTemp
    l) (l_nonStochOneF l) (l_pinkNoiseSet l) (l_reference l) (l_refType l) (l_temperature l)
    (l_IECTop l) (l_IECBottom l) (l_QuadTop l) (l_QuadBottom l) (l_current l) (l_anisotropy l)
    (l_flDriver l) (l_dlDriver l) (l_IDMITop l) (l_IDMIBottom l) (l_Hreserved l) (l_external l)
    (l_Oersted l) (l_Hdmi l) (l_nAlpha l) (l_nScale l) (l_nStd l) v (l_ofn l) (l_bfn l) (l_nsrc
    l) (l_ngen l) (l_rng l) (l_rpos l) (l_cache l).
Definition set_l_ofn (v : (nat * R * R)) (l : layer) : layer :=
  LY (l_id l) (l_mag l) (l_anis l) (l_Ms l) (l_thickness l) (l_cellVolume l) (l_cellSurface l)
    (l_demag l) (l_dipoleBottom l) (l_dipoleTop l) (l_damping l) (l_fieldLikeTorque l)
    (l_dampingLikeTorque l) (l_slon l) (l_beta l) (l_kappa l) (l_spinPol l) (l_includeSTT l)
    (l_includeSOT l) (l_dynamicSOT l) (l_alternativeSTT l) (l_temperatureSet l) (l_nonStochTemp
    l) (l_nonStochOneF l) (l_pinkNoiseSet l) (l_reference l) (l_refType l) (l_temperature l)
    (l_IECTop l) (l_IECBottom l) (l_QuadTop l) (l_QuadBottom l) (l_current l) (l_anisotropy l)
    (l_flDriver l) (l_dlDriver l) (l_IDMITop l) (l_IDMIBottom l) (l_Hreserved l) (l_external l)
    (l_Oersted l) (l_Hdmi l) (l_nAlpha l) (l_nScale l) (l_nStd l) (l_nAxis l) v (l_bfn l)
    (l_nsrc l) (l_ngen l) (l_rng l) (l_rpos l) (l_cache l).
Definition set_l_bfn (v : option vnoise) (l : layer) : layer :=
  LY (l_id l) (l_mag l) (l_anis l) (l_Ms l) (l_thickness l) (l_cellVolume l) (l_cellSurface l)
    (l_demag l) (l_dipoleBottom l) (l_dipoleTop l) (l_damping l) (l_fieldLikeTorque l)
    (l_dampingLikeTorque l) (l_slon l) (l_beta l) (l_kappa l) (l_spinPol l) (l_includeSTT l)
    (l_includeSOT l) (l_dynamicSOT l) (l_alternativeSTT l) (l_temperatureSet l) (l_nonStochTemp
    l) (l_nonStochOneF l) (l_pinkNoiseSet l) (l_reference l) (l_refType l) (l_temperature l)
    (l_IECTop l) (l_IECBottom l) (l_QuadTop l) (l_QuadBottom l) (l_current l) (l_anisotropy l)
    (l_flDriver l) (l_dlDriver l) (l_IDMITop l) (l_IDMIBottom l) (l_Hreserved l) (l_external l)
    (l_Oersted l) (l_Hdmi l) (l_nAlpha l) (l_nScale l) (l_nStd l) (l_nAxis l) (l_ofn l) v
    (l_nsrc l) (l_ngen l) (l_rng l) (l_rpos l) (l_cache l).
Definition set_l_nsrc (v : nat -> nat -> cvec) (l : layer) : layer :=
  LY (l_id l) (l_mag l) (l_anis l) (l_Ms l) (l_thickness l) (l_cellVolume l) (l_cellSurface l)
    (l_demag l) (l_dipoleBottom l) (l_dipoleTop l) (l_damping l) (l_fieldLikeTorque l)
    (l_dampingLikeTorque l) (l_slon l) (l_beta l) (l_kappa l) (l_spinPol l) (l_includeSTT l)
    (l_includeSOT l) (l_dynamicSOT l) (l_alternativeSTT l) (l_temperatureSet l) (l_nonStochTemp
    l) (l_nonStochOneF l) (l_pinkNoiseSet l) (l_reference l) (l_refType l) (l_temperature l)
    (l_IECTop l) (l_IECBottom l) (l_QuadTop l) (l_QuadBottom l) (l_current l) (l_anisotropy l)
    (l_flDriver l) (l_dlDriver l) (l_IDMITop l) (l_IDMIBottom l) (l_Hreserved l) (l_external l)
    (l_Oersted l) (l_Hdmi l) (l_nAlpha l) (l_nScale l) (l_nStd l) (l_nAxis l) (l_ofn l) (l_bfn
    l) v (l_ngen l) (l_rng l) (l_rpos l) (l_cache l).
Definition set_l_ngen (v : nat) (l : layer) : layer :=
  LY (l_id l) (l_mag l) (l_anis l) (l_Ms l) (l_thickness l) (l_cellVolume l) (l_cellSurface l)
    (l_demag l) (l_dipoleBottom l) (l_dipoleTop l) (l_damping l) (l_fieldLikeTorque l)
    (l_dampingLikeTorque l) (l_slon l) (l_beta l) (l_kappa l) (l_spinPol l) (l_includeSTT l)
    (l_includeSOT l) (l_dynamicSOT l) (l_alternativeSTT l) (l_temperatureSet l) (l_nonStochTemp
    l) (l_nonStochOneF l) (l_pinkNoiseSet l) (l_reference l) (l_refType l) (l_temperature l)
    (l_IECTop l) (l_IECBottom l) (l_QuadTop l) (l_QuadBottom l) (l_current l) (l_anisotropy l)
    (l_flDriver l) (l_dlDriver l) (l_IDMITop l) (l_IDMIBottom l) (l_Hreserved l) (l_external l)
    (l_Oersted l) (l_Hdmi l) (l_nAlpha l) (l_nScale l) (l_nStd l) (l_nAxis l) (l_ofn l) (l_bfn
    l) (l_nsrc l) v (l_rng l) (l_rpos l) (l_cache l).
Definition set_l_rng (v : nat -> R) (l : layer) : layer :=
  LY (l_id l) (l_mag l) (l_anis l) (l_Ms l) (l_thickness l) (l_cellVolume l) (l_cellSurface l)
    (l_demag l) (l_dipoleBottom l) (l_dipoleTop l) (l_damping l) (l_fieldLikeTorque l)
    (l_dampingLikeTorque l) (l_slon l) (l_beta l) (l_kappa l) (l_spinPol l) (l_includeSTT l)
    (l_includeSOT l) (l_dynamicSOT l) (l_alternativeSTT l) (l_temperatureSet l) (l_nonStochTemp
    l) (l_nonStochOneF l) (l_pinkNoiseSet l) (l_reference l) (l_refType l) (l_temperature l)
    (l_IECTop l) (l_IECBottom l) (l_QuadTop l) (l_QuadBottom l) (l_current l) (l_anisotropy l)
    (l_flDriver l) (l_dlDriver l) (l_IDMITop l) (l_IDMIBottom l) (l_Hreserved l) (l_external l)
    (l_Oersted l) (l_Hdmi l) (l_nAlpha l) (l_nScale l) (l_nStd l) (l_nAxis l) (l_ofn l) (l_bfn
    l) (l_nsrc l) (l_ngen l) v (l_rpos l) (l_cache l).
Definition set_l_rpos (v : nat) (l : layer) : layer :=
  LY (l_id l) (l_mag l) (l_anis l) (l_Ms l) (l_thickness l) (l_cellVolume l) (l_cellSurface l)
    (l_demag l) (l_dipoleBottom l) (l_dipoleTop l) (l_damping l) (l_fieldLikeTorque l)
    (l_dampingLikeTorque l) (l_slon l) (l_beta l) (l_kappa l) (l_spinPol l) (l_includeSTT l)
    (l_includeSOT l) (l_dynamicSOT l) (l_alternativeSTT l) (l_temperatureSet l) (l_nonStochTemp
    l) (l_nonStochOneF l) (l_pinkNoiseSet l) (l_reference l) (l_refType l) (l_temperature l)
    (l_IECTop l) (l_IECBottom l) (l_QuadTop l) (l_QuadBottom l) (l_current l) (l_anisotropy l)
    (l_flDriver l) (l_dlDriver l) (l_IDMITop l) (l_IDMIBottom l) (l_Hreserved l) (l_external l)
    (l_Oersted l) (l_Hdmi l) (l_nAlpha l) (l_nScale l) (l_nStd l) (l_nAxis l) (l_ofn l) (l_bfn
    l) (l_nsrc l) (l_ngen l) (l_rng l) v (l_cache l).
Definition set_l_cache (v : lcache) (l : layer) : layer :=
  LY (l_id l) (l_mag l) (l_anis l) (l_Ms l) (l_thickness l) (l_cellVolume l) (l_cellSurface l)
    (l_demag l) (l_dipoleBottom l) (l_dipoleTop l) (l_damping l) (l_fieldLikeTorque l)
    (l_dampingLikeTorque l) (l_slon l) (l_beta l) (l_kappa l) (l_spinPol l) (l_includeSTT l)
    (l_includeSOT l) (l_dynamicSOT l) (l_alternativeSTT l) (l_temperatureSet l) (l_nonStochTemp
    l) (l_nonStochOneF l) (l_pinkNoiseSet l) (l_reference l) (l_refType l) (l_temperature l)
    (l_IECTop l) (l_IECBottom l) (l_QuadTop l) (l_QuadBottom l) (l_current l) (l_anisotropy l)
    (l_flDriver l) (l_dlDriver l) (l_IDMITop l) (l_IDMIBottom l) (l_Hreserved l) (l_external l)
    (l_Oersted l) (l_Hdmi l) (l_nAlpha l) (l_nScale l) (l_nStd l) (l_nAxis l) (l_ofn l) (l_bfn
    l) (l_nsrc l) (l_ngen l) (l_rng l) (l_rpos l) v.

Definition upd_cache (f : lcache -> lcache) (l : layer) : layer := set_l_cache (f (l_cache l)) l.
