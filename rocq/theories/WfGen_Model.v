(** bilby/gw/waveform_generator.py, class WaveformGenerator.
    Times and frequencies are the coupled series of Series_Model; source models, the parameter conversion and the
    Fourier transforms are arbitrary functions, a result None is an exception. *)
From Coq Require Import String List Bool.
From Verif Require Import PyDict Series_Model.
Import ListNotations.
Open Scope list_scope.

Section Gen.
Context {D F A V Y : Type}.
Variable mkf : D -> D -> option F.
Variable mkt : D -> D -> D -> option A.
Variable off : F -> option (D * D).
Variable oft : A -> option (D * D).
Variable t0of : A -> D.
(** == of parameter values *)
Variable veqb : V -> V -> bool.
(** source models by identity: frequency models take the frequencies, time models the times *)
Inductive points := Fr (f : F) | Ti (t : A).
Inductive wave := Arr (a : Y) | Pol (d : dict Y) | Tup (a b : Y).
Variable source : nat -> points -> dict V -> option wave.
(** parameter_conversion *)
Variable conv : dict V -> option (dict V).
(** utils.nfft (series and frequencies), utils.infft *)
Variable nfft : Y -> D -> Y * Y.
Variable infft : Y -> D -> Y.

(** 61-77; [cache] None: nothing computed so far *)
Record wg := mkW { tf : @cts D F A; fdm : option nat; tdm : option nat; keys : list string; args : dict V;
                   pars : option (dict V); cache : option (dict V * option nat * option nat * wave) }.
Inductive exn := ValueError | KeyErr | AttributeError | RuntimeErr | ModelError.
(** python's == of dictionaries *)
Definition deq (a b : dict V) : bool :=
  Nat.eqb (List.length a) (List.length b) && forallb (fun kv => match dget b (fst kv) with Some w => veqb (snd kv) w | None => false end) a.
Definition oeq (a b : option nat) : bool := match a, b with Some x, Some y => Nat.eqb x y | None, None => true | _, _ => false end.
Definition update (d p : dict V) : dict V := fold_left (fun d kv => dset d (fst kv) (snd kv)) p d.
Definition set_tf (w : wg) (s : @cts D F A) : wg := mkW s (fdm w) (tdm w) (keys w) (args w) (pars w) (cache w).
Definition set_pars (w : wg) (p : dict V) : wg := mkW (tf w) (fdm w) (tdm w) (keys w) (args w) (Some p) (cache w).
(** 217-239: keys of only one of the two sets are popped, which raises for those of the model *)
Definition set_parameters (w : wg) (d : dict V) : wg + exn :=
  match conv d with
  | None => inr ModelError
  | Some n =>
      if forallb (dmem n) (keys w)
      then inl (set_pars w (update (filter (fun kv => existsb (String.eqb (fst kv)) (keys w)) n) (args w)))
      else inr KeyErr
  end.
(** 241-256 *)
Definition source_keys (sig : nat -> list string) (f t : option nat) : option (list string) :=
  match f, t with Some m, _ => Some (sig m) | None, Some m => Some (sig m) | None, None => None end.
(** 23-77; a missing or non-dictionary [parameters] is skipped *)
Definition new_wg (sig : nat -> list string) (s : @cts D F A) (f t : option nat) (p : option (dict V)) (ar : dict V) : wg + exn :=
  match source_keys sig f t with
  | None => inr AttributeError
  | Some k => let w := mkW s f t k ar None None in match p with Some d => set_parameters w d | None => inl w end
  end.
(** 191-204 *)
Definition transformed (fd : bool) (fs : option D) (x : wave) : option wave :=
  match fs with
  | None => None
  | Some r => match x with
      | Arr a => Some (if fd then (let q := nfft a r in Tup (fst q) (snd q)) else Arr (infft a r))
      | Pol d => Some (Pol (map (fun kv => (fst kv, if fd then fst (nfft (snd kv) r) else infft (snd kv) r)) d))
      | Tup _ _ => None end
  end.
(** 175-181, 188-204 *)
Definition compute (fd : bool) (fs : option D) (pf : F) (pt : A) (model trans : option nat) (p : dict V) : wave + exn :=
  match model, trans with
  | Some m, _ => match source m (if fd then Fr pf else Ti pt) p with Some x => inl x | None => inr ModelError end
  | None, Some m => match source m (if fd then Ti pt else Fr pf) p with
      | Some x => match transformed fd fs x with Some y => inl y | None => inr ModelError end
      | None => inr ModelError end
  | None, None => inr RuntimeErr
  end.
Definition model_of (fd : bool) (w : wg) := if fd then fdm w else tdm w.
Definition trans_of (fd : bool) (w : wg) := if fd then tdm w else fdm w.
(** 172-186 *)
Definition cached (fd : bool) (pf : F) (pt : A) (w : wg) : (wave + exn) * wg :=
  match pars w with
  | None => (inr AttributeError, w)
  | Some p =>
      let hit := match cache w with
                 | Some (q, m, t, x) => if deq p q && oeq m (model_of fd w) && oeq t (trans_of fd w) then Some x else None
                 | None => None end in
      match hit with
      | Some x => (inl x, w)
      | None => match compute fd (c_fs (tf w)) pf pt (model_of fd w) (trans_of fd w) p with
                | inl x => (inl x, mkW (tf w) (fdm w) (tdm w) (keys w) (args w) (pars w) (Some (p, model_of fd w, trans_of fd w, x)))
                | inr e => (inr e, w) end
      end
  end.
(** 109-174: both arrays are made first, in the order of the call *)
Definition arrays (fd : bool) (s : @cts D F A) : option (F * A) * @cts D F A :=
  if fd then let '(f, s1) := get_f mkf s in match f with None => (None, s1) | Some f => let '(t, s2) := get_t mkt s1 in (match t with Some t => Some (f, t) | None => None end, s2) end
  else let '(t, s1) := get_t mkt s in match t with None => (None, s1) | Some t => let '(f, s2) := get_f mkf s1 in (match f with Some f => Some (f, t) | None => None end, s2) end.
Definition strain (fd : bool) (p : option (dict V)) (w : wg) : (wave + exn) * wg :=
  let '(r, s) := arrays fd (tf w) in
  let w := set_tf w s in
  match r with
  | None => (inr ValueError, w)
  | Some (pf, pt) =>
      match p with
      | None => cached fd pf pt w
      | Some d => match set_parameters w d with inl w' => cached fd pf pt w' | inr e => (inr e, w) end
      end
  end.
(** what a user can do: a call, the setters, editing the parameters or the waveform_arguments in place, and editing
    the arrays of the waveform returned last, which is the object in the cache *)
Inductive op := Strain (fd : bool) (p : option (dict V)) | SetParameters (d : dict V) | SetPar (k : string) (v : V)
              | SetArg (k : string) (v : V) | Grid (o : @cop D F A) | EditWave (f : wave -> wave).
Definition step (w : wg) (o : op) : wg :=
  match o with
  | Strain fd p => snd (strain fd p w)
  | SetParameters d => match set_parameters w d with inl w' => w' | inr _ => w end
  | SetPar k v => match pars w with Some p => set_pars w (dset p k v) | None => w end
  | SetArg k v => mkW (tf w) (fdm w) (tdm w) (keys w) (dset (args w) k v) (pars w) (cache w)
  | Grid o => set_tf w (cstep mkf mkt off oft t0of (tf w) o)
  | EditWave f => match cache w with Some (q, m, t, x) => mkW (tf w) (fdm w) (tdm w) (keys w) (args w) (pars w) (Some (q, m, t, f x)) | None => w end
  end.
Definition run (w : wg) (l : list op) : wg := fold_left step l w.
End Gen.
