(** The names bilby's settings have in the other samplers: core/sampler/nestle.py 28-61, cpnest.py 44-72, nessai.py 269-300,
    polychord.py 33-124, pymultinest.py 38-112, dnest4.py 103-119, 243-248, ptmcmc.py 46-176, with base_sampler.py 200-215, 302-320, 822-832, 896-897. *)
From Coq Require Import String List Bool Arith.
From Verif Require Import PyDict Sampler_Model.
Import ListNotations.
Open Scope string_scope.
Open Scope list_scope.

Definition npool_names := ["npool"; "queue_size"; "threads"; "nthreads"; "cores"; "n_pool"].
Definition seed_names := ["sampling_seed"; "seed"; "random_seed"].
Definition live_names := ["nlive"; "nlives"; "n_live_points"; "npoints"; "npoint"; "Nlive"; "num_live_points"; "num_particles"].
Definition walks_names := ["walks"; "steps"; "nmcmc"].
Definition walker_names := ["nwalker"; "nwalkers"; "draws"; "Niter"].
Definition burn_names := ["burn"; "nburn"].

(** the names of the defaults and the groups that _translate_kwargs handles, in their order *)
Record interface := Interface { default_names : list string; rules : list (string * list string) }.
Definition nestle := Interface ["verbose"; "method"; "npoints"; "update_interval"; "npdim"; "maxiter"; "maxcall"; "dlogz"; "decline_factor"; "rstate"; "callback"; "steps"; "enlarge"]
  [("npoints", live_names); ("steps", walks_names)].
Definition cpnest := Interface ["verbose"; "nthreads"; "nlive"; "maxmcmc"; "seed"; "poolsize"; "nhamiltonian"; "resume"; "output"; "proposals"; "n_periodic_checkpoint"]
  [("seed", seed_names); ("nlive", live_names); ("nthreads", npool_names)].
Definition polychord := Interface ["use_polychord_defaults"; "nlive"; "num_repeats"; "nprior"; "do_clustering"; "feedback"; "precision_criterion"; "logzero"; "max_ndead"; "boost_posterior"; "posteriors"; "equals";
  "cluster_posteriors"; "write_resume"; "write_paramnames"; "read_resume"; "write_stats"; "write_live"; "write_dead"; "write_prior"; "compression_factor"; "base_dir"; "file_root"; "seed"; "grade_dims"; "grade_frac"; "nlives"]
  [("seed", seed_names); ("nlive", live_names)].
Definition pymultinest := Interface ["importance_nested_sampling"; "resume"; "verbose"; "sampling_efficiency"; "n_live_points"; "n_params"; "n_clustering_params"; "wrapped_params"; "multimodal"; "const_efficiency_mode";
  "evidence_tolerance"; "n_iter_before_update"; "null_log_evidence"; "max_modes"; "mode_tolerance"; "outputfiles_basename"; "seed"; "context"; "write_output"; "log_zero"; "max_iter"; "init_MPI"; "dump_callback"]
  [("seed", seed_names); ("n_live_points", live_names)].
Definition dnest4 := Interface ["max_num_levels"; "num_steps"; "new_level_interval"; "num_per_step"; "thread_steps"; "num_particles"; "lam"; "beta"; "seed"; "verbose"; "outputfiles_basename"; "backend"]
  [("seed", seed_names); ("num_steps", walks_names)].
Definition ptmcmc := Interface ["p0"; "Niter"; "neff"; "burn"; "verbose"; "ladder"; "Tmin"; "Tmax"; "Tskip"; "isave"; "thin"; "covUpdate"; "SCAMweight"; "AMweight"; "DEweight"; "HMCweight"; "MALAweight"; "NUTSweight";
  "HMCstepsize"; "HMCsteps"; "groups"; "custom_proposals"; "loglargs"; "loglkwargs"; "logpargs"; "logpkwargs"; "logl_grad"; "logp_grad"; "outDir"]
  [("Niter", walker_names); ("burn", burn_names)].
(** nessai takes its defaults from the package *)
Definition nessai_rules := [("seed", seed_names); ("nlive", live_names); ("n_pool", npool_names)].

Section Values.
Variable V : Type.
Variable truthy : V -> bool.
(** [if not d[k]: d[k] = v] *)
Definition or_else (k : string) (v : V) (d : dict V) : dict V := match dget d k with Some w => if truthy w then d else dset d k v | None => d end.
(** nessai.py 276-281: without any, the pool size of bilby *)
Definition nessai_translate (own_npool : V) (kw : dict V) : dict V :=
  let kw := translate nessai_rules kw in if dmem kw "n_pool" then kw else dset kw "n_pool" own_npool.
(** 283-300: a configuration file read as [config] overrides; output directory *)
Definition nessai_kwargs (defaults : dict V) (own_npool : V) (load : V -> dict V) (own_plot own_output : V) (kw : dict V) : dict V :=
  let d := dupdate defaults (nessai_translate own_npool kw) in
  let d := match dget d "config_file" with Some f => ddel (dupdate d (load f)) "config_file" | None => d end in
  verify defaults (or_else "output" own_output (or_else "plot" own_plot d)).

(** nestle.py 55-61 *)
Definition nestle_kwargs (defaults : dict V) (print_progress : V) (kw : dict V) : dict V :=
  let d := dupdate defaults (translate (rules nestle) kw) in
  let d := match dget d "verbose" with Some v => if truthy v then ddel (dset d "callback" print_progress) "verbose" else d | None => d end in
  verify defaults d.

(** polychord.py 108-117 *)
Definition polychord_dynamic (of_number : nat -> V) (fracs : V -> V) (one_dim : V) (ndim : nat) (d : dict V) : dict V :=
  let d := or_else "grade_dims" one_dim d in
  let d := or_else "grade_frac" (match dget d "grade_dims" with Some g => fracs g | None => one_dim end) d in
  let d := or_else "nlive" (of_number (ndim * 25)) d in
  or_else "num_repeats" (of_number (ndim * 5)) d.

(** ptmcmc.py 136-176 *)
Definition ptmcmc_init := ["groups"; "loglargs"; "logp_grad"; "logpkwargs"; "loglkwargs"; "logl_grad"; "logpargs"; "outDir"; "verbose"].
Definition ptmcmc_run := ["Niter"; "neff"; "Tmin"; "HMCweight"; "covUpdate"; "SCAMweight"; "ladder"; "burn"; "NUTSweight"; "AMweight"; "MALAweight"; "thin"; "HMCstepsize"; "isave"; "Tskip"; "HMCsteps"; "Tmax"; "DEweight"].
End Values.
