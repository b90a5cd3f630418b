(* Model of the fan-out coordination used by the transaction manager, the domain manager, the gateway and others.
   Source: /repo/middleware/common/include/common/message/coordinate.h, namespace fan.

   A message is its correlation and a content [M]; the callback is kept as a value [C] that is handed out when it is invoked.
   std::shared_ptr<Entry> is modelled by a key that is unique per entry. *)
From Coq Require Import ZArith List Bool.
Import ListNotations.
Local Open Scope Z_scope.

(* Pending::State, Pending, coordinate.h:36-72 *)
Inductive pstate := Waiting | Received | Failed.
Record pending := mk_p { p_corr : Z; p_id : Z; p_state : pstate }.

Definition waiting (p : pending) : bool := match p_state p with Waiting => true | _ => false end.
Definition set_state (x : pstate) (p : pending) : pending := mk_p (p_corr p) (p_id p) x.

(* Entry, coordinate.h:77-134 *)
Record entry (M C : Type) := mk_e { e_key : Z; e_pend : list pending; e_recv : list (Z * M); e_call : C }.
Arguments mk_e {M C}. Arguments e_key {M C}. Arguments e_pend {M C}. Arguments e_recv {M C}. Arguments e_call {M C}.

(* Out, coordinate.h:137-224; [f_next]: the next key *)
Record fan (M C : Type) := mk_f { f_lookup : list (Z * Z); f_entries : list (entry M C); f_next : Z }.
Arguments mk_f {M C}. Arguments f_lookup {M C}. Arguments f_entries {M C}. Arguments f_next {M C}.

(* an invocation of a callback: received messages and outcome *)
Record fired (M C : Type) := mk_fired { d_key : Z; d_call : C; d_recv : list (Z * M); d_out : list pending }.
Arguments mk_fired {M C}. Arguments d_key {M C}. Arguments d_call {M C}. Arguments d_recv {M C}. Arguments d_out {M C}.

Definition fan_empty {M C} : fan M C := mk_f [] [] 0.

(* Entry::done, coordinate.h:110-117 *)
Definition done (ps : list pending) : bool := negb (existsb waiting ps).
Definition fire {M C} (e : entry M C) : fired M C := mk_fired (e_key e) (e_call e) (e_recv e) (e_pend e).

(* the first pending with that correlation becomes received; None: CASUAL_ASSERT( found). Entry::coordinate, coordinate.h:84-93 *)
Fixpoint mark_received (c : Z) (ps : list pending) : option (list pending) :=
  match ps with
  | [] => None
  | p :: r => if p_corr p =? c then Some (set_state Received p :: r)
              else match mark_received c r with Some r' => Some (p :: r') | None => None end
  end.

(* Entry::failed, coordinate.h:96-107 *)
Definition mark_failed (id : Z) (ps : list pending) : list pending :=
  map (fun p => if p_id p =? id then set_state Failed p else p) ps.
Definition failed_corrs (id : Z) (ps : list pending) : list Z :=
  map p_corr (filter (fun p => p_id p =? id) ps).

Definition lookup_has (c : Z) (l : list (Z * Z)) : bool := existsb (fun x => fst x =? c) l.
Definition lookup_erase (c : Z) (l : list (Z * Z)) : list (Z * Z) := filter (fun x => negb (fst x =? c)) l.

(* m_lookup.emplace: keeps an existing element *)
Definition lookup_emplace (c k : Z) (l : list (Z * Z)) : list (Z * Z) := if lookup_has c l then l else l ++ [(c, k)].

(* operator () ( pending, callback), coordinate.h:143-156 *)
Definition fan_start {M C} (ps : list (Z * Z)) (cb : C) (f : fan M C) : fan M C * list (fired M C) :=
  let e := mk_e (f_next f) (map (fun x => mk_p (fst x) (snd x) Waiting) ps) [] cb in
  if done (e_pend e) then (mk_f (f_lookup f) (f_entries f) (f_next f + 1), [fire e])
  else (mk_f (fold_left (fun l p => lookup_emplace (p_corr p) (e_key e) l) (e_pend e) (f_lookup f))
             (f_entries f ++ [e]) (f_next f + 1), []).

(* operator () ( message), coordinate.h:160-171.  None: the assertion fails, or the entry is gone although it is looked up *)
Definition fan_reply {M C} (c : Z) (m : M) (f : fan M C) : option (fan M C * list (fired M C)) :=
  match find (fun x => fst x =? c) (f_lookup f) with
  | None => Some (f, [])
  | Some (_, k) =>
      match find (fun e => e_key e =? k) (f_entries f) with
      | None => None
      | Some e =>
          match mark_received c (e_pend e) with
          | None => None
          | Some ps =>
              let e' := mk_e k ps (e_recv e ++ [(c, m)]) (e_call e) in
              if done ps then
                Some (mk_f (lookup_erase c (f_lookup f)) (filter (fun x => negb (e_key x =? k)) (f_entries f)) (f_next f), [fire e'])
              else
                Some (mk_f (lookup_erase c (f_lookup f)) (map (fun x => if e_key x =? k then e' else x) (f_entries f)) (f_next f), [])
          end
      end
  end.

(* the predicate of erase_if in Out::failed, coordinate.h:176-191: new lookup, the entry if it stays, the invocation if any *)
Definition fail_entry {M C} (id : Z) (l : list (Z * Z)) (e : entry M C) : list (Z * Z) * option (entry M C) * list (fired M C) :=
  match failed_corrs id (e_pend e) with
  | [] => (l, Some e, [])
  | cs =>
      let e' := mk_e (e_key e) (mark_failed id (e_pend e)) (e_recv e) (e_call e) in
      let l' := fold_left (fun l c => lookup_erase c l) cs l in
      if done (e_pend e') then (l', None, [fire e']) else (l', Some e', [])
  end.

Fixpoint fail_entries {M C} (id : Z) (l : list (Z * Z)) (es : list (entry M C)) : list (Z * Z) * list (entry M C) * list (fired M C) :=
  match es with
  | [] => (l, [], [])
  | e :: r =>
      let '(l1, o, d1) := fail_entry id l e in
      let '(l2, r', d2) := fail_entries id l1 r in
      (l2, match o with Some e' => e' :: r' | None => r' end, d1 ++ d2)
  end.

(* Out::failed, coordinate.h:173-191 *)
Definition fan_failed {M C} (id : Z) (f : fan M C) : fan M C * list (fired M C) :=
  let '(l, es, d) := fail_entries id (f_lookup f) (f_entries f) in (mk_f l es (f_next f), d).

(* ---------------------------------------------------------------- sequences of uses *)
Inductive fop (M C : Type) := Start (ps : list (Z * Z)) (cb : C) | Reply (c : Z) (m : M) | Fail (id : Z).
Arguments Start {M C}. Arguments Reply {M C}. Arguments Fail {M C}.

Definition fan_step {M C} (f : fan M C) (o : fop M C) : option (fan M C * list (fired M C)) :=
  match o with
  | Start ps cb => Some (fan_start ps cb f)
  | Reply c m => fan_reply c m f
  | Fail id => Some (fan_failed id f)
  end.

Fixpoint fan_run {M C} (f : fan M C) (os : list (fop M C)) : option (fan M C * list (fired M C)) :=
  match os with
  | [] => Some (f, [])
  | o :: r =>
      match fan_step f o with
      | None => None
      | Some (f1, d1) => match fan_run f1 r with Some (f2, d2) => Some (f2, d1 ++ d2) | None => None end
      end
  end.
