(* C59 - C61: what a caller can tell from the history of its calls. *)
From Coq Require Import ZArith List Bool.
From Verif Require Import CtxModel CtxSpec CallModel.
Import ListNotations.
Local Open Scope Z_scope.

(* the calls that have been made and neither been answered nor cancelled: the descriptor and the correlation of the request *)
Definition after_event (o : list (Z * Z)) (v : event) : list (Z * Z) :=
  match v with
  | Request c d _ => if d =? 0 then o else o ++ [(d, c)]
  | Took c _ => filter (fun x => negb (snd x =? c)) o
  | _ => o
  end.
Definition after_entry (o : list (Z * Z)) (n : entry) : list (Z * Z) :=
  let '(i, out, ev) := n in
  let o1 := fold_left after_event ev o in
  match i, out with
  | Tpcancel d, O_done => filter (fun x => negb (fst x =? d)) o1
  | _, _ => o1
  end.
Definition outstanding (h : list entry) : list (Z * Z) := fold_left after_entry h [].

Definition events (h : list entry) : list event := flat_map (fun n => snd n) h.
(* the replies with a correlation that have arrived, and those that were taken *)
Definition arrived (c : Z) (l : list event) : list reply := flat_map (fun v => match v with Arrived c' r => if c' =? c then [r] else [] | _ => [] end) l.
Definition taken (c : Z) (l : list event) : list reply := flat_map (fun v => match v with Took c' r => if c' =? c then [r] else [] | _ => [] end) l.

(* l1 is l2 with zero or more elements left out *)
Inductive sub {A} : list A -> list A -> Prop :=
| sub_nil : sub [] []
| sub_keep x l1 l2 : sub l1 l2 -> sub (x :: l1) (x :: l2)
| sub_skip x l1 l2 : sub l1 l2 -> sub l1 (x :: l2).

(* what the caller is told when a reply is taken *)
Definition told (d : Z) (r : reply) (o : output) : Prop :=
  o = if r_code r =? 0 then O_reply d r else if r_code r =? TPESVCFAIL then O_fail d r else O_error (if r_code r =? TPENOENT then TPESVCERR else r_code r).

(* no two replies arrive for the same request *)
Definition single (l : list event) : Prop := forall c, (length (arrived c l) <= 1)%nat.

(* the transaction of the caller *)
Definition in_tx (s : proc) : Z := x_id (t_id (current (p_tx s))).

(* a reply arrives only for a request that has been sent, and that wants one *)
Definition causal (l : list event) : Prop := forall a c r b, l = a ++ Arrived c r :: b -> exists d x, d <> 0 /\ In (Request c d x) a.
(* a reply that has arrived, hasn't been taken, and isn't to be thrown away *)
Definition waiting (c : Z) (r : reply) (l : list event) : Prop := In (Arrived c r) l /\ taken c l = [] /\ ~ In (Discarded c) l.
(* a call that waits, if there's nothing to wait for: TPNOBLOCK, or a signal *)
Definition no_reply_yet (noblock sig : bool) (o : output) : Prop := o = if noblock then O_error TPEBLOCK else if sig then O_error TPGOTSIG else O_waits.

(* ------------------------------------------------------------------ for what a resource manager sees: as in_order of CtxSpec *)
Definition input_in_order (i : input) (s : proc) : Prop := match i with Tx i => CtxSpec.in_order i (p_tx s) | _ => True end.
Fixpoint inputs_in_order (e : env) (is : list input) (s : proc) : Prop :=
  match is with [] => True | i :: q => input_in_order i s /\ inputs_in_order e q (fst (fst (xstep e i s))) end.
