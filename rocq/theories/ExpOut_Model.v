(** Where the samplers keep their files, and what get_expected_outputs says: bilby/core/sampler/base_sampler.py 792-817, 992-999,
    dynesty.py 254, 305-328, 583, ptemcee.py 201, 719-739, nessai.py 294-297, 318-340, polychord.py 150-173, emcee.py 240-257,
    cpnest.py 171-172, ptmcmc.py 149-150, pymultinest.py 64, ultranest.py 73, dnest4.py 102-117, 250-252, bilby_mcmc/sampler.py 218, 578-579. *)
From Coq Require Import String Ascii List Bool.
Import ListNotations.
Open Scope string_scope.

Definition slash : ascii := "/"%char.
Definition starts_slash (s : string) : bool := match s with String c _ => Ascii.eqb c slash | EmptyString => false end.
Fixpoint ends_slash (s : string) : bool := match s with EmptyString => false | String c EmptyString => Ascii.eqb c slash | String _ t => ends_slash t end.
(** posixpath.join of two parts *)
Definition join (a b : string) : string :=
  if starts_slash b then b else if (String.eqb a "" || ends_slash a)%bool then a ++ b else a ++ "/" ++ b.

Inductive sampler := Emcee | Zeus | Kombine | Dynesty | DynamicDynesty | Ptemcee | Cpnest | PTMCMC | Pymultinest | Ultranest | Nessai | PolyChord | DNest4 | BilbyMCMC.
(** the class attributes sampler_name and abbreviation *)
Definition sampler_name (s : sampler) : string :=
  match s with Emcee => "emcee" | Zeus => "zeus" | Kombine => "kombine" | Dynesty => "dynesty" | DynamicDynesty => "dynamic_dynesty" | Ptemcee => "ptemcee" | Cpnest => "cpnest"
  | PTMCMC => "ptmcmcsampler" | Pymultinest => "pymultinest" | Ultranest => "ultranest" | Nessai => "nessai" | PolyChord => "pypolychord" | DNest4 => "d4nest" | BilbyMCMC => "mcmc_sampler" end.
Definition abbreviation (s : sampler) : option string :=
  match s with PTMCMC => Some "ptmcmc_temp" | Pymultinest => Some "pm" | Ultranest => Some "ultra" | _ => None end.
(** get_expected_outputs: files and directories *)
Definition expected (s : sampler) (outdir label : string) : list string * list string :=
  match s with
  | Dynesty | DynamicDynesty => (map (fun kind => join outdir (label ++ "_" ++ kind ++ ".pickle")) ["resume"; "dynesty"], [])
  | Ptemcee => ([outdir ++ "/" ++ label ++ "_checkpoint_resume.pickle"], [])
  | Nessai => let d := join (join outdir (label ++ "_" ++ sampler_name s)) "" in ([], d :: map (fun x => join (join d x) "") ["proposal"; "diagnostics"])
  | PolyChord => ([], [join (join outdir "chains") ""])
  | BilbyMCMC => ([join outdir (label ++ "_resume.pickle")], [])
  | _ => ([], [join (join outdir (match abbreviation s with Some a => a | None => sampler_name s end ++ "_" ++ label)) ""])
  end.
(** what a sampler with default settings writes its state and its result to: files, or the directory handed to the external sampler *)
Definition written (s : sampler) (outdir label : string) : list string :=
  match s with
  | Emcee | Zeus | Kombine =>
    let d := join outdir (match s with Emcee => "emcee" | Zeus => "zeus" | _ => "kombine" end ++ "_" ++ label) in [join d "sampler.pickle"; join d "chain.dat"]
  | Dynesty | DynamicDynesty => [outdir ++ "/" ++ label ++ "_resume.pickle"; outdir ++ "/" ++ label ++ "_dynesty.pickle"]
  | Ptemcee => [outdir ++ "/" ++ label ++ "_checkpoint_resume.pickle"]
  | Cpnest => [outdir ++ "/cpnest_" ++ label ++ "/"]
  | PTMCMC => [outdir ++ "/ptmcmc_temp_" ++ label ++ "/"]
  | Pymultinest => [outdir ++ "/pm_" ++ label ++ "/"]
  | Ultranest => [outdir ++ "/ultra_" ++ label ++ "/"]
  | DNest4 => [outdir ++ "/dn4_" ++ label ++ "/"; outdir ++ "/dnest4" ++ label ++ "/"]
  | Nessai => [join (join outdir (label ++ "_nessai")) ""]
  | PolyChord => [outdir ++ "/chains"]
  | BilbyMCMC => [outdir ++ "/" ++ label ++ "_resume.pickle"]
  end.
