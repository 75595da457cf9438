(** bilby_mcmc/sampler.py 604-614, 740-750, 804-830, 1143-1152: what BilbyPTMCMCSampler does at each call of [step_all_chains]. *)
From Coq Require Import List Bool Arith.
Import ListNotations.

(** what one call does, in its order; [Adapt tt] with the number of rounds of swaps so far *)
Inductive event := Steps | Ensembles | Swaps | Adapt (tt : nat).
(** the counters of 607-611, the flag, and minimum_index_adapt of the primary chain (909) *)
Record st := St { temperature : nat; l2_temperature : nat; ensemble : nat; l2_ensemble : nat; adapt : bool; min_adapt : nat }.
Definition start (L2 : nat) (adapt0 : bool) : st := St 0 0 0 (L2 / 2 + 1) adapt0 0.
(** 804-830; [pos] is the position of the primary chain after the step, [t10] ten times adapt_t0 *)
Definition step_all_chains (nensemble ntemps L2 t10 pos : nat) (s : st) : list event * st :=
  let '(ev, s) := ([Steps], s) in
  let '(ev, s) := if (1 <? nensemble) && (L2 <=? l2_ensemble s)
                  then (ev ++ [Ensembles], St (temperature s) (l2_temperature s) (ensemble s + 1) 0 (adapt s) (min_adapt s)) else (ev, s) in
  let '(ev, s) := if (1 <? ntemps) && (L2 <=? l2_temperature s)
                  then let s := St (temperature s + 1) 0 (ensemble s) (l2_ensemble s) (adapt s) (min_adapt s) in
                       let ev := ev ++ [Swaps] in
                       if pos <? t10 then if adapt s then (ev ++ [Adapt (temperature s)], St (temperature s) 0 (ensemble s) (l2_ensemble s) true pos) else (ev, s)
                       else if adapt s then (ev, St (temperature s) 0 (ensemble s) (l2_ensemble s) false (min_adapt s)) else (ev, s)
                  else (ev, s) in
  (ev, St (temperature s) (l2_temperature s + 1) (ensemble s) (l2_ensemble s + 1) (adapt s) (min_adapt s)).
(** calls one after the other, with the positions of the primary chain *)
Fixpoint calls (nensemble ntemps L2 t10 : nat) (ps : list nat) (s : st) : list (list event) * st :=
  match ps with
  | [] => ([], s)
  | p :: t => let (ev, s) := step_all_chains nensemble ntemps L2 t10 p s in
              let (evs, s) := calls nensemble ntemps L2 t10 t s in (ev :: evs, s)
  end.

(** 740-750: the number of samples by the position of the primary chain; [now] is what _calculate_nsamples gives at the moment *)
Definition cache := list (nat * nat).
Fixpoint look (c : cache) (p : nat) : option nat := match c with [] => None | (q, v) :: t => if Nat.eqb q p then Some v else look t p end.
Definition nsamples (c : cache) (pos now : nat) : nat * cache := match look c pos with Some v => (v, c) | None => (now, c ++ [(pos, now)]) end.
(** a history of requests *)
Fixpoint requests (c : cache) (rs : list (nat * nat)) : list nat * cache :=
  match rs with
  | [] => ([], c)
  | (p, now) :: t => let (v, c) := nsamples c p now in let (vs, c) := requests c t in (v :: vs, c)
  end.

(** 1143-1152 with 691-698: the samplers of a tempered column, or of every column; a table of counts by temperature and member *)
Definition column (j : nat) (table : list (list nat)) : list nat := map (fun row => nth j row 0) table.
Definition tempered_columns (pt_ensemble : bool) (nensemble : nat) (table : list (list nat)) : list (list nat) :=
  if pt_ensemble then map (fun j => column j table) (seq 0 nensemble) else [column 0 table].
Definition rejection_sampling_count (pt_rejection pt_ensemble : bool) (nensemble : nat) (table : list (list nat)) : option nat :=
  if pt_rejection then Some (list_sum (map list_sum (tempered_columns pt_ensemble nensemble table))) else None.
