(** bilby/bilby_mcmc/chain.py 83-129 (storage of a chain) and the parallel-tempering loop
    of bilby/bilby_mcmc/sampler.py 804-867, 1262-1314 *)
From Coq Require Import ZArith List Bool Lia Reals.
Import ListNotations.
Open Scope Z_scope.

(** ** chain.py *)
Section Chain.
Context {S : Type}.
Variable zero : S.      (** a row of np.zeros *)
Variable better : S -> S -> bool.  (** better a b: log likelihood of a > that of b *)

(** 61-75; [position] starts at -1, [best] = max_log_likelihood (None = -inf) *)
Record chain := mkChain { block : nat; arr : list S; arr_len : nat; position : Z; cur : S; best : option S }.
Inductive err := SamplerError | IndexError.
Definition res (A : Type) := (A + err)%type.
(** numpy indexing of the first axis *)
Definition np_index (a : list S) (i : Z) : option nat :=
  if (0 <=? i) && (i <? Z.of_nat (length a)) then Some (Z.to_nat i)
  else if (- Z.of_nat (length a) <=? i) && (i <? 0) then Some (Z.to_nat (i + Z.of_nat (length a)))
  else None.
Fixpoint set_nth (a : list S) (n : nat) (s : S) : list S :=
  match a, n with
  | [], _ => []
  | _ :: t, O => s :: t
  | x :: t, Datatypes.S n' => x :: set_nth t n' s
  end.
Definition np_set (a : list S) (i : Z) (s : S) : res (list S) :=
  match np_index a i with Some n => inl (set_nth a n s) | None => inr IndexError end.
Definition np_get (a : list S) (i : Z) : res S :=
  match np_index a i with Some n => inl (nth n a zero) | None => inr IndexError end.
(** 87-91 [_extend_chain_array] *)
Definition extend (c : chain) : chain :=
  let a := arr c ++ repeat zero (block c) in
  mkChain (block c) a (length a) (position c) (cur c) (best c).
(** 101-114 [append] *)
Definition append (c : chain) (s : S) : res chain :=
  let c1 := mkChain (block c) (arr c) (arr_len c) (position c + 1) (cur c) (best c) in
  let c2 := if position c1 >=? Z.of_nat (arr_len c1) then extend c1 else c1 in
  match np_set (arr c2) (position c2) s with
  | inr e => inr e
  | inl a => inl (mkChain (block c2) a (arr_len c2) (position c2) s
                    (match best c2 with None => Some s | Some b => if better s b then Some s else Some b end))
  end.
(** 61-81 [__init__] *)
Definition init (bl : nat) (s : S) : res chain :=
  append (mkChain bl (repeat zero bl) bl (-1) s None) s.
(** 116-124 [__getitem__] *)
Definition getitem (c : chain) (i : Z) : res S :=
  let i := if i <? 0 then i + position c + 1 else i in
  if i <=? position c then np_get (arr c) i else inr SamplerError.
(** 126-130 [__setitem__]: no bounds check, [current_sample] and the maximum untouched *)
Definition setitem (c : chain) (i : Z) (s : S) : res chain :=
  let i := if i <? 0 then i + position c + 1 else i in
  match np_set (arr c) i s with
  | inr e => inr e
  | inl a => inl (mkChain (block c) a (arr_len c) (position c) (cur c) (best c))
  end.
(** 135-136 [get_1d_array], whole rows *)
Definition stored (c : chain) : list S := firstn (Z.to_nat (position c + 1)) (arr c).
(** python slice a[lo:hi:step] for 0 <= lo, 0 <= hi, step >= 1 *)
Fixpoint every (step k : nat) (l : list S) : list S :=
  match l with [] => [] | x :: t => match k with O => x :: every step (step - 1) t | Datatypes.S k' => every step k' t end end.
Definition slice (l : list S) (lo hi step : nat) : list S := every step 0 (skipn lo (firstn hi l)).
(** 360-362 [samples] with given minimum index and thinning factor *)
Definition samples (c : chain) (minimum_index thin : nat) : list S :=
  slice (arr c) minimum_index (Z.to_nat (position c)) thin.
Inductive op := Append (s : S) | SetItem (i : Z) (s : S).
Definition step (c : chain) (o : op) : res chain :=
  match o with Append s => append c s | SetItem i s => setitem c i s end.
Fixpoint run (c : chain) (os : list op) : res chain :=
  match os with [] => inl c | o :: os' => match step c o with inl c' => run c' os' | inr e => inr e end end.
End Chain.

(** ** sampler.py: tempered chains *)
Section PT.
(** a sample with its log likelihood; [Rnd] the random numbers of one internal step *)
Variables (S Rnd : Type) (logl : S -> R).
(** one internal Metropolis-Hastings iteration 1269-1308 for inverse temperature beta:
    from the stored chain, the current sample and random numbers to the next current
    sample (differential evolution and density-estimate proposals read the stored chain) *)
Variable move : R -> list S -> S -> Rnd -> S.
(** a chain as the growing list it refines (Chain_Props, C30), newest sample first, and
    its [current_sample] *)
Record tchain := mkT { beta : R; hist : list S; tcur : S; accepted : nat; rejected : nat }.
(** 1262-1314 [step] of a chain that has not stopped: starts from chain.current_sample,
    L1steps iterations (one per element of [rs]), appends the result *)
Definition mcmc_step (c : tchain) (rs : list Rnd) : tchain :=
  let curr := fold_left (move (beta c) (hist c)) rs (tcur c) in
  mkT (beta c) (curr :: hist c) curr (accepted c) (rejected c).
(** 832-867: chain[-1] of neighbouring temperatures, exchanged when u <= alpha; the branch
    of [_get_sample_to_swap] for chains that have stopped is not modelled *)
Definition last_sample (c : tchain) : S := match hist c with [] => tcur c | s :: _ => s end.
Definition set_last (c : tchain) (s : S) : tchain :=
  mkT (beta c) (match hist c with [] => [] | _ :: t => s :: t end) (tcur c) (accepted c) (rejected c).
Definition alpha_swap (ci cj : tchain) : R :=
  exp ((beta cj - beta ci) * (logl (last_sample ci) - logl (last_sample cj))).
Definition swap_pair (ci cj : tchain) (u : R) : tchain * tchain :=
  if Rle_dec u (alpha_swap ci cj) then
    let vi := last_sample ci in let vj := last_sample cj in
    let ci' := set_last ci vj in
    (mkT (beta ci') (hist ci') (tcur ci') (Datatypes.S (accepted ci')) (rejected ci'), set_last cj vi)
  else (mkT (beta ci) (hist ci) (tcur ci) (accepted ci) (Datatypes.S (rejected ci)), cj).
(** loop over Tindex in range(ntemps - 1) *)
Fixpoint swap_from (c : tchain) (cs : list tchain) (us : list R) : list tchain :=
  match cs, us with
  | cj :: cs', u :: us' => let '(ci', cj') := swap_pair c cj u in ci' :: swap_from cj' cs' us'
  | _, _ => c :: cs
  end.
Definition swap_tempered_chains (cs : list tchain) (us : list R) : list tchain :=
  match cs with [] => [] | c :: t => swap_from c t us end.
(** one action on all chains: a step of every chain (with its random numbers) or a round
    of swaps; 804-830 *)
Inductive action := StepAll (rs : list (list Rnd)) | SwapAll (us : list R).
Fixpoint step_each (cs : list tchain) (rs : list (list Rnd)) : list tchain :=
  match cs, rs with c :: cs', r :: rs' => mcmc_step c r :: step_each cs' rs' | _, _ => cs end.
Definition act (cs : list tchain) (a : action) : list tchain :=
  match a with StepAll rs => step_each cs rs | SwapAll us => swap_tempered_chains cs us end.
Definition pt_run (cs : list tchain) (l : list action) : list tchain := fold_left act l cs.
End PT.
