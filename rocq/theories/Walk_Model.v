(** bilby/core/sampler/dynesty_utils.py: likelihood-constrained random walks (30-58, 108-491).
    A proposal is any function of the current point: its random numbers are already drawn. *)
From Coq Require Import Reals List Arith.
From Verif Require Import PyReal Samples_Model.
Import ListNotations.
Open Scope R_scope.

Section Walk.
Context {V : Type} (prior_transform : list R -> V) (loglikelihood : V -> R).
Variables (periodic reflective : option (list nat)) (loglstar : R).

(** one attempted move from u: None = outside the unit cube; otherwise the proposed point *)
Definition propose (f : list R -> list R) (u : list R) : option (list R * V * R) :=
  match apply_boundaries_ (f u) periodic reflective with
  | None => None
  | Some u' => let v := prior_transform u' in Some (u', v, loglikelihood v)
  end.
Definition above (l : R) : bool := if Rlt_dec loglstar l then true else false.

(** 115-169 [FixedRWalk.__call__]; [cur] holds current_v and logl once assigned *)
Record fstate := mkF { fu : list R; fcur : option (V * R); naccept : nat; ncall : nat }.
Definition fixed_step (s : fstate) (f : list R -> list R) : fstate :=
  match propose f (fu s) with
  | None => s
  | Some (u', v, l) =>
      if above l then mkF u' (Some (v, l)) (naccept s + 1) (ncall s + 1)
      else mkF (fu s) (fcur s) (naccept s) (ncall s + 1)
  end.
Record answer := mkAns { au : list R; av : V; al : R; acalls : nat; aaccept : nat; areject : nat }.
(** 151-161: [rnd] is the uniform random point *)
Definition fixed_rwalk (props : list (list R -> list R)) (u rnd : list R) : answer :=
  let s := fold_left fixed_step props (mkF u None 0 0) in
  let '(u', v, l) := match naccept s, fcur s with
                     | S _, Some (v, l) => (fu s, v, l)
                     | _, _ => let v := prior_transform rnd in (rnd, v, loglikelihood v)
                     end in
  mkAns u' v l (ncall s) (naccept s) (length props - naccept s).

(** 212-333 [ACTTrackingRWalk.build_cache]. Points u_list, v_list, logl_list as one list of triples;
    the number of steps comes from the autocorrelation estimates and is left open *)
Definition point := (list R * V * R)%type.
Fixpoint act_walk (props : list (list R -> list R)) (cur : point) : list point * point * nat :=
  match props with
  | [] => ([], cur, 0%nat)
  | f :: rest =>
      let '(u, v, l) := cur in
      let '(cur', k) := match propose f u with
                        | Some (u', v', l') => if above l' then ((u', v', l'), 1%nat) else (cur, 0%nat)
                        | None => (cur, 0%nat)
                        end in
      let '(pts, last, n) := act_walk rest cur' in (cur' :: pts, last, (k + n)%nat)
  end.
(** l[n::n] *)
Fixpoint every (n : nat) (k : nat) (l : list point) : list point :=
  match l with
  | [] => []
  | x :: r => match k with O => x :: every n (n - 1) r | S k' => every n k' r end
  end.
Inductive outcome (A : Type) := Ok (a : A) | Overflow.
Arguments Ok {A}. Arguments Overflow {A}.
(** [act]: the estimate of 295 for an accepted walk, as a positive number of steps; without accepted
    moves it is inf (356-359) and int(np.ceil(inf)) raises OverflowError (303), before the branch of 306.
    [in_loop]: whether the loop computed a finite act (314) *)
Definition build_cache (props : list (list R -> list R)) (u : list R) (act thin : nat) (no_thin in_loop : bool) : outcome (list point) :=
  let v := prior_transform u in
  let '(pts, last, accept) := act_walk props (u, v, loglikelihood v) in
  match accept with
  | O => Overflow
  | S _ => if negb in_loop then Ok [last]
           else if (no_thin || (length pts <=? thin * act)%nat)%bool then Ok [last]
           else Ok (every (thin * act) (thin * act) pts)
  end.
End Walk.
Arguments Ok {A}. Arguments Overflow {A}.

(** 193-210: the cache across calls. [builds] is the list of future results of build_cache, consumed
    when the cache is empty or a rebuild is requested; None = they ran out *)
Section Cache.
Context {P : Type} (logl : P -> R).
Fixpoint drop_below (loglstar : R) (c : list P) : list P :=
  match c with
  | [] => []
  | x :: r => if Rlt_dec (logl x) loglstar then drop_below loglstar r else c
  end.
Fixpoint serve (loglstar : R) (cache : list P) (builds : list (list P)) : option (P * list P * list (list P)) :=
  match drop_below loglstar cache with
  | x :: r => Some (x, r, builds)
  | [] => match builds with [] => None | b :: bs => serve loglstar b bs end
  end.
End Cache.

(** 451-491 [estimate_nmcmc]: accept ratio a, previous estimate [old] (None = not set), tau given.
    None = inf is possible only inside and is capped by maxmcmc *)
Definition estimate_nmcmc (maxmcmc safety tau a : R) (old : option R) : R :=
  let n := if Req_EM_T a 0
           then match old with None => None | Some o => Some ((1 + 1 / tau) * o) end
           else let e := safety * (2 / a - 1) in
                match old with None => Some e | Some o => Some ((1 - 1 / tau) * o + e / tau) end in
  Rmax safety (match n with None => maxmcmc | Some x => Rmin x maxmcmc end).

(** 52-56 [update_user]: new walks and the integer passed on; nlive >= 10 *)
Definition update_walks (nlive : nat) (n_target maxmcmc : R) (accept kw walks : R) : R * R :=
  let accept_prob := Rmax (1 / 2) accept / kw in
  let delay := INR (nlive / 10 - 1) in
  let w := (walks * delay + n_target / accept_prob) / (delay + 1) in
  (w, Rmin (- rfloor (- w)) maxmcmc).

(** 381-449 [AcceptanceTrackingRWalk.__call__]; the class-level old_act is an input. [act] None = inf *)
Section Track.
Context {V : Type} (prior_transform : list R -> V) (loglikelihood : V -> R).
Variables (periodic reflective : option (list nat)) (loglstar : R).
Variables (nact maxmcmc : nat) (tau : R) (old : option R) (prop : nat -> list R -> list R).
Record tstate := mkTr { tu : list R; tcur : option (V * R); accept : nat; reject : nat; nfail : nat; act : option R; iteration : nat; stopped : bool }.
(** condition of the while loop (399) *)
Definition going (s : tstate) : bool :=
  if stopped s then false else
  match act s with None => true | Some a => if Rlt_dec (INR (iteration s)) (INR nact * a) then true else false end.
Definition track_step (s : tstate) : tstate :=
  let i := (iteration s + 1)%nat in
  match propose prior_transform loglikelihood periodic reflective (prop i) (tu s) with
  | None => mkTr (tu s) (tcur s) (accept s) (reject s) (nfail s + 1) (act s) i false
  | Some (u', v, l) =>
      let ok := above loglstar l in
      let acc := (if ok then accept s + 1 else accept s)%nat in
      let rej := (if ok then reject s else reject s + 1)%nat in
      let a := if (nact <? i)%nat then Some (estimate_nmcmc (INR maxmcmc) 1 tau (INR acc / INR (acc + rej + nfail s)) old) else act s in
      mkTr (if ok then u' else tu s) (if ok then Some (v, l) else tcur s) acc rej (nfail s) a i (maxmcmc <? acc + rej)%nat
  end.
Definition track_init (u : list R) : tstate := mkTr u None 0 0 0 None 0 false.
Fixpoint track (n : nat) (s : tstate) : tstate :=
  match n with O => s | S m => if going s then track m (track_step s) else s end.
(** 437-449, once the loop has ended *)
Definition track_answer (s : tstate) (rnd : list R) : @answer V :=
  let '(u', v, l) := match act s, accept s, tcur s with
                     | Some _, S _, Some (v, l) => (tu s, v, l)
                     | _, _, _ => let v := prior_transform rnd in (rnd, v, loglikelihood v)
                     end in
  mkAns u' v l (accept s + reject s) (accept s) (reject s + nfail s).
End Track.
