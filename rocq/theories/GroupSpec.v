(* What the properties of the queue group's request handling talk about. *)
From Coq Require Import ZArith List String Bool Lia.
From Verif Require Import QueueModel QueueSpec GroupModel.
Import ListNotations.
Local Open Scope Z_scope.

(* The operations that the store reflects after a trace: what the running process sees, and what a crash leaves.
   A crash takes the first back to the second. *)
Definition log := list (Z * event).
Definition log_step (l : log * log) (a : action) : log * log :=
  match a with
  | Applied corr e => (fst l ++ [(corr, e)], snd l)
  | Persisted => (fst l, fst l)
  | Crashed => (snd l, snd l)
  | _ => l
  end.
Definition logs (tr : list action) : log * log := fold_left log_step tr ([], []).
Definition seen (tr : list action) : log := fst (logs tr).
Definition durable (tr : list action) : log := snd (logs tr).

(* answers to a dequeue request *)
Definition answers (corr : Z) (a : action) : bool :=
  match a with
  | Sent _ c (RDequeue _) | Sent _ c RDequeueError => c =? corr
  | _ => false
  end.
Definition gives_up (corr : Z) (a : action) : bool := match a with Dropped c => c =? corr | _ => false end.
Definition asks (corr : Z) (i : input) : bool :=
  match i with IDequeue c _ _ _ _ _ _ => c =? corr | _ => false end.
Definition waits (corr : Z) (r : dreq) : bool := dr_corr r =? corr.
Definition count {A} (p : A -> bool) (l : list A) : nat := List.length (filter p l).

(* message [m] is one that a waiting request [r] asks for, apart from time *)
Definition wants (r : dreq) (m : msg) : Prop :=
  m_queue m = dr_queue r /\
  match sel_id (dr_sel r) with
  | Some i => m_id m = i
  | None => sel_props (dr_sel r) = ""%string \/ c_props (m_content m) = sel_props (dr_sel r)
  end.

(* the transaction manager was told that the group takes part in a branch of transaction [g], and that branch has not been
   settled since, nor has the group been restarted *)
Definition settles (t : trid) (i : input) : Prop :=
  match i with
  | ICommit _ _ u _ => u = t
  | IRollback _ _ u _ _ => u = t
  | ICrash => True
  | _ => False
  end.
Definition told (g : Z) (l : list (input * list action)) : Prop :=
  exists b l1 i a l2, l = l1 ++ (i, a) :: l2 /\ In (Involved (g, b)) a /\ forall j c, In (j, c) l2 -> ~ settles (g, b) j.
