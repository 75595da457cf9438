(** Cosmological distance priors (bilby/gw/prior.py 94-341) and the default
    cosmology (bilby/gw/cosmology.py). *)
From Coq Require Import Reals List.
Import ListNotations.
Open Scope R_scope.

(** the three names accepted at gw/prior.py 136-139 *)
Inductive dname := Redshift | Luminosity | Comoving.
(** one of the dictionaries [_minimum], [_maximum]: its three entries *)
Record limit := mkLim { l_z : R; l_dl : R; l_dc : R }.
Definition entry (n : dname) (l : limit) : R :=
  match n with Redshift => l_z l | Luminosity => l_dl l | Comoving => l_dc l end.
(** the attributes the setters touch.  [table] is the redshift interval on which
    the density was last tabulated (the interpolant [__all_interpolated] built
    from the arrays of _get_*_arrays); None before the arrays exist *)
Record cprior := mkCP {
  cp_name : dname; cp_unit : R;          (* the unit, in Mpc *)
  cp_min : limit; cp_max : limit; cp_table : R * R }.

Section Cosmology.
(** astropy: luminosity and comoving distance in Mpc, and z_at_value for each *)
Variables (DL DC zL zC : R -> R).
Definition dist (n : dname) (z : R) : R := match n with Redshift => z | Luminosity => DL z | Comoving => DC z end.
(** 199-225 *)
Definition set_limit (n : dname) (unit value : R) : limit :=
  match n with
  | Redshift => mkLim value (DL value) (DC value)
  | Luminosity => let z := if Req_EM_T value 0 then 0 else zL (value * unit) in mkLim z value (DC z)
  | Comoving => let z := if Req_EM_T value 0 then 0 else zC (value * unit) in mkLim z (DL z) value
  end.
(** 319-320, 338-339 *)
Definition redshift_range (mn mx : limit) : R * R := (l_z mn * (99/100), l_z mx * (101/100)).
(** 168-173, 186-235 once the object exists *)
Definition set_minimum (p : cprior) (v : R) : cprior :=
  let mn := set_limit (cp_name p) (cp_unit p) v in
  let t := if Rlt_dec v (entry (cp_name p) (cp_min p)) then redshift_range mn (cp_max p) else cp_table p in
  mkCP (cp_name p) (cp_unit p) mn (cp_max p) t.
Definition set_maximum (p : cprior) (v : R) : cprior :=                           (* 179-184 *)
  let mx := set_limit (cp_name p) (cp_unit p) v in
  let t := if Rlt_dec (entry (cp_name p) (cp_max p)) v then redshift_range (cp_min p) mx else cp_table p in
  mkCP (cp_name p) (cp_unit p) (cp_min p) mx t.
(** 149-162 and Interped.__init__ (prior/interpolated.py 45-58).  The arrays are
    the distances in Mpc of the redshifts of the table, so [min(xx)], [max(xx)]
    are those of its ends (the distances increase with the redshift) *)
Definition construct (n : dname) (unit minimum maximum : R) : cprior :=
  let mn := set_limit n unit minimum in
  let mx := set_limit n unit maximum in
  let t := redshift_range mn mx in
  let p := mkCP n unit mn mx t in
  let minimum' := Rmax (dist n (fst t)) minimum in                                (* interpolated.py 54 *)
  let maximum' := Rmin (dist n (snd t)) maximum in                                (* 55 *)
  set_maximum (set_minimum p minimum') maximum'.
Definition minimum (p : cprior) : R := entry (cp_name p) (cp_min p).              (* 164-166 *)
Definition maximum (p : cprior) : R := entry (cp_name p) (cp_max p).              (* 175-177 *)
(** 238-265; the default unit of [_default_args_dict] is Mpc *)
Definition get_corresponding_prior (p : cprior) (n : dname) (unit : option R) : cprior :=
  construct n (match unit with Some u => u | None => 1 end) (entry n (cp_min p)) (entry n (cp_max p)).
Inductive cop := SetMin (v : R) | SetMax (v : R).
Definition capply (p : cprior) (o : cop) : cprior :=
  match o with SetMin v => set_minimum p v | SetMax v => set_maximum p v end.
End Cosmology.

(** gw/cosmology.py.  [C] stands for the instances of astropy.cosmology.FLRW;
    [by_name] is [getattr(astropy.cosmology, name)], [build] instantiates from a
    dictionary (70-76), [planck] is Planck15 *)
Section Default.
Variables (C N D : Type) (by_name : N -> C) (build : D -> C) (planck : C).
Inductive cosmo_arg := ANone | AInstance (c : C) | AName (n : N) | ADict (d : D).
(** what comes back: an instance, or the dictionary itself *)
Inductive cosmo_val := VInstance (c : C) | VDict (d : D).
(** the module globals DEFAULT_COSMOLOGY and COSMOLOGY[0] *)
Record globals := mkG { g_default : option C; g_cosmology : option C }.
Definition initial : globals := mkG None None.                                    (* 5-6 *)
Definition set_default_cosmology (g : globals) : globals :=                       (* 9-14 *)
  match g_default g with None => mkG (Some planck) (Some planck) | Some _ => g end.
Definition get_cosmology (g : globals) (a : cosmo_arg) : globals * option cosmo_val :=      (* 17-43 *)
  let g := set_default_cosmology g in
  (g, match a with
      | ANone => match g_default g with Some c => Some (VInstance c) | None => None end
      | AName n => Some (VInstance (by_name n))
      | AInstance c => Some (VInstance c)
      | ADict d => Some (VDict d)
      end).
Definition set_cosmology (g : globals) (a : cosmo_arg) : globals :=               (* 46-81 *)
  let g := set_default_cosmology g in
  mkG (g_default g)
    (match a with
     | ANone => g_default g
     | AInstance c => Some c
     | AName n => Some (by_name n)
     | ADict d => Some (build d)
     end).
End Default.
