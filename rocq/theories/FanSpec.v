(* What a fan-out should do, said per fan-out. *)
From Coq Require Import ZArith List Bool.
From Verif Require Import FanModel.
Import ListNotations.
Local Open Scope Z_scope.

(* what has happened to the requests of one fan-out: their states, and the replies so far *)
Definition progress (M : Type) : Type := list pending * list (Z * M).

Definition begin {M} (ps : list (Z * Z)) : progress M := (map (fun x => mk_p (fst x) (snd x) Waiting) ps, []).

(* A reply counts if its request is still waited for; a failure counts for every request to that id, answered or not. *)
Definition track {M C} (st : progress M) (o : fop M C) : progress M :=
  match o with
  | Start _ _ => st
  | Reply c m =>
      if existsb (fun p => (p_corr p =? c) && waiting p) (fst st)
      then (map (fun p => if p_corr p =? c then set_state Received p else p) (fst st), snd st ++ [(c, m)])
      else st
  | Fail id => (map (fun p => if p_id p =? id then set_state Failed p else p) (fst st), snd st)
  end.

(* nobody is waited for *)
Definition complete {M} (st : progress M) : Prop := forall p, In p (fst st) -> p_state p <> Waiting.

(* [completes st os r]: following the events [os] from [st], the fan-out is complete for the first time at [r] *)
Inductive completes {M C} : progress M -> list (fop M C) -> progress M -> Prop :=
| c_now : forall st os, complete st -> completes st os st
| c_later : forall st o os r, ~ complete st -> completes (track st o) os r -> completes st (o :: os) r.

(* the correlations of all started requests, and the number of fan-outs started *)
Definition started {M C} (os : list (fop M C)) : list Z :=
  flat_map (fun o => match o with Start ps _ => map fst ps | _ => [] end) os.
Definition starts {M C} (os : list (fop M C)) : Z :=
  Z.of_nat (length (filter (fun o => match o with Start _ _ => true | _ => false end) os)).

(* the invocations that belong to fan-out number [k] *)
Definition of_key {M C} (k : Z) (ds : list (fired M C)) : list (fired M C) := filter (fun d => d_key d =? k) ds.
