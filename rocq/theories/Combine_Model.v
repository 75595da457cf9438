(** core/result.py 1807-1998: ResultList.combine with its checks and consistency levels.  Log evidences, errors and noise
    evidences are finite or nan (None); a prior dictionary, the nested samples and the posterior can be missing (None). *)
From Coq Require Import String Reals List Bool Arith.
From Verif Require Import PyDict Samples_Model Evidence_Model Result_Model.
Import ListNotations.
Open Scope string_scope.
Open Scope list_scope.
Open Scope R_scope.

Inductive cerr := ListErr | ValueErr | KeyError.
Inductive out (X : Type) := Got (x : X) | Err (e : cerr).
Arguments Got {X} x. Arguments Err {X} e.
Definition andthen {X Y} (a : out X) (f : X -> out Y) : out Y := match a with Got x => f x | Err e => Err e end.

Section Combining.
(** rows of the posterior, priors, nested samples, sampler arguments, and everything else in a result *)
Context {T V N K O : Type} (peq : V -> V -> bool).
Record result := mkRes { r_label : option string; r_sampler : string; r_nested : option N; r_posterior : option (list T);
  r_lnZ : option R; r_err : option R; r_noise : option R; r_bayes : option R; r_keys : list string; r_priors : option (dict V); r_kwargs : option K; r_other : O }.

(** 1960-1968 *)
Definition react (level : string) : out unit :=
  if String.eqb level "error" then Err ListErr else if String.eqb level "warning" || String.eqb level "ignore" then Got tt else Err ValueErr.
Definition check (level : string) (ok : bool) : out unit := if ok then Got tt else react level.
(** 1994-1997 *)
Definition same_sampler (r0 : result) (rs : list result) : bool := forallb (fun r => String.eqb (r_sampler r) (r_sampler r0)) rs.
(** 1982-1992: np.allclose with equal_nan *)
Definition close (x y : option R) : bool :=
  match x, y with None, None => true | Some a, Some b => if Rle_dec (Rabs (a - b)) (/ 100000000) then true else false | _, _ => false end.
Definition same_data (r0 : result) (rs : list result) : bool := forallb (fun r => close (r_noise r) (r_noise r0)) rs.
(** 1977-1980: equality of sets *)
Definition inclb (l m : list string) : bool := forallb (fun k => existsb (String.eqb k) m) l.
Definition same_parameters (r0 : result) (rs : list result) : bool := forallb (fun r => inclb (r_keys r0) (r_keys r) && inclb (r_keys r) (r_keys r0)) rs.
(** 1970-1975; a missing prior dictionary raises ValueError (608-612), a missing key KeyError at every level *)
Fixpoint check_prior_keys (level : string) (p0 : dict V) (p : option (dict V)) (keys : dict V) : out unit :=
  match keys with
  | [] => Got tt
  | (k, v0) :: rest =>
      match p with
      | None => Err ValueErr
      | Some p =>
          match dget p k with
          | None => Err KeyError
          | Some v => andthen (check level (peq v0 v && (length p0 =? length p)%nat)) (fun _ => check_prior_keys level p0 (Some p) rest)
          end
      end
  end.
Fixpoint check_priors (level : string) (p0 : dict V) (rs : list result) : out unit :=
  match rs with
  | [] => Got tt
  | r :: rest => andthen (check_prior_keys level p0 (r_priors r) p0) (fun _ => check_priors level p0 rest)
  end.

(** 1952-1958 *)
Definition all_nested (rs : list result) : bool := forallb (fun r => match r_nested r with Some _ => true | None => false end) rs.
(** the posteriors (695-701) *)
Fixpoint posteriors (rs : list result) : out (list (list T)) :=
  match rs with
  | [] => Got []
  | r :: rest => match r_posterior r with None => Err ValueErr | Some p => andthen (posteriors rest) (fun ps => Got (p :: ps)) end
  end.
(** the evidences when none is nan *)
Fixpoint as_runs (rs : list result) (ps : list (list T)) : option (list (run T)) :=
  match rs, ps with
  | r :: rs, p :: ps => match r_lnZ r, as_runs rs ps with Some z, Some l => Some (mkRun z (r_err r) p :: l) | _, _ => None end
  | _, _ => Some []
  end.
Definition minus (x y : option R) : option R := match x, y with Some a, Some b => Some (a - b) | _, _ => None end.
(** 1889-1898, 1935-1944: a nan among the evidences is passed on; the errors do not depend on the evidences *)
Definition combined_lnZ (rs : list result) (ps : list (list T)) : option R := option_map combine_lnZ (as_runs rs ps).
Definition combined_err (rs : list result) : option R := combine_err (map (fun r => mkRun (S := T) 0 (r_err r) []) rs).
(** 1901-1905: with a nan evidence every comparison is false, so no row of any run is selected *)
Definition nested_rows (rs : list result) (ps : list (list T)) (us : list (list R)) : list T :=
  match as_runs rs ps with Some l => combine_nested_rows l us | None => [] end.

(** 1807-1863; [us]: the uniform numbers, [shuffle]: what sampling all rows without replacement does to them, if asked for *)
Definition combine_results (level : string) (shuffle : option (list T -> list T)) (us : list (list R)) (empty : result) (rs : list result) : out result :=
  match rs with
  | [] => Got empty
  | [r] => Got r
  | r0 :: _ =>
      let label := match r_label r0 with Some l => Some (String.append l "_combined") | None => None end in
      andthen (check level (same_sampler r0 rs)) (fun _ =>
      andthen (check level (same_data r0 rs)) (fun _ =>
      andthen (check level (same_parameters r0 rs)) (fun _ =>
      andthen (match r_priors r0 with None => Err ValueErr | Some p0 => check_priors level p0 rs end) (fun _ =>
      let order l := match shuffle with Some f => f l | None => l end in
      match r_nested r0 with
      | Some _ =>
          if all_nested rs then
            andthen (posteriors rs) (fun ps =>
            let z := combined_lnZ rs ps in
            Got (mkRes label (r_sampler r0) None (Some (order (nested_rows rs ps us))) z (combined_err rs) (r_noise r0) (minus z (r_noise r0)) (r_keys r0) (r_priors r0) None (r_other r0)))
          else Err ListErr
      | None =>
          andthen (posteriors rs) (fun ps =>
          if String.eqb (r_sampler r0) "bilby_mcmc" || String.eqb (r_sampler r0) "bilbymcmc" then
            let z := combined_lnZ rs ps in
            Got (mkRes label (r_sampler r0) None (Some (order (concat ps))) z (combined_err rs) (r_noise r0) (minus z (r_noise r0)) (r_keys r0) (r_priors r0) (r_kwargs r0) (r_other r0))
          else
            Got (mkRes label (r_sampler r0) None (Some (order (concat ps))) (r_lnZ r0) (r_err r0) (r_noise r0) (r_bayes r0) (r_keys r0) (r_priors r0) (r_kwargs r0) (r_other r0)))
      end))))
  end.
End Combining.
Arguments result : clear implicits.
