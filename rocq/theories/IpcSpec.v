(* The vocabulary of C29 and C30. *)
From Coq Require Import ZArith List Bool Arith.
From Verif Require Import IpcModel.
Import ListNotations.

(* messages are told apart by type and correlation *)
Definition key : Type := (Z * Z)%type.
Definition key_eqb (a b : key) : bool := (fst a =? fst b)%Z && (snd a =? snd b)%Z.
Definition m_key (m : msg) : key := (m_type m, m_corr m).
Definition t_key (t : transport) : key := (t_type t, t_corr t).
Definition m_is (k : key) (m : msg) : bool := key_eqb k (m_key m).
Definition t_is (k : key) (t : transport) : bool := key_eqb k (t_key t).

(* l1 is l2 with zero or more elements left out *)
Inductive sub {A} : list A -> list A -> Prop :=
| sub_nil : sub [] []
| sub_keep x l1 l2 : sub l1 l2 -> sub (x :: l1) (x :: l2)
| sub_skip x l1 l2 : sub l1 l2 -> sub l1 (x :: l2).

(* transmits max m i ts: when the first i datagrams of m have arrived, ts is a way to send the rest: datagrams that already arrived may be
   sent again any number of times, until the last one arrives *)
Inductive transmits (max : nat) (m : msg) : nat -> list transport -> Prop :=
| tr_done : transmits max m (length (datagrams max m)) []
| tr_next i t ts : nth_error (datagrams max m) i = Some t -> transmits max m (S i) ts -> transmits max m i (t :: ts)
| tr_again i j t ts : j < i -> i < length (datagrams max m) -> nth_error (datagrams max m) j = Some t ->
    transmits max m i ts -> transmits max m i (t :: ts).

(* stream max k ms ts: ts carries the messages ms with key k, one after the other, and possibly a part of one more *)
Inductive stream (max : nat) (k : key) : list msg -> list transport -> Prop :=
| st_none : stream max k [] []
| st_part m ts more : m_key m = k -> more <> [] -> transmits max m 0 (ts ++ more) -> stream max k [] ts
| st_more m ms t1 t2 : m_key m = k -> transmits max m 0 t1 -> stream max k ms t2 -> stream max k (m :: ms) (t1 ++ t2).

Definition arrivals (l : list op) : list transport := flat_map (fun o => match o with Arrive t => [t] | _ => [] end) l.
Definition pushed (l : list op) : list msg := flat_map (fun o => match o with Push m => [m] | _ => [] end) l.
Definition delivered (r : list report) : list msg := flat_map (fun x => match x with Got m => [m] | _ => [] end) r.
Definition dropped (r : list report) : list msg := flat_map (fun x => match x with Dropped m => [m] | _ => [] end) r.
Definition consumed (r : list report) : list msg := flat_map (fun x => match x with Got m | Dropped m => [m] | _ => [] end) r.
(* the messages the device holds, completely received *)
Definition ready (i : inbound) : list msg := map msg_of (filter is_complete (i_cache i)).
Definition of_key (k : key) (l : list msg) : list msg := filter (m_is k) l.

(* the datagrams of every key are the transmission of the messages sent with that key. Datagrams of different keys are mixed freely *)
Definition proper (max : nat) (sent : key -> list msg) (l : list op) : Prop :=
  0 < max /\ ~ In Clear l /\ forall k, stream max k (sent k) (filter (t_is k) (arrivals l)).

(* every selection but Where looks at the type and the correlation only *)
Definition by_key (l : list op) : Prop := forall p, ~ In (Next (Where p)) l /\ ~ In (Cached (Where p)) l.

(* datagrams that are all of the key, back to back from offset 0 *)
Fixpoint back_to_back (k : key) (offset : nat) (ds : list transport) : Prop :=
  match ds with [] => True | d :: r => t_key d = k /\ t_offset d = offset /\ back_to_back k (offset + length (t_data d)) r end.
(* m was put together from datagrams in ts *)
Definition made_of (ts : list transport) (m : msg) : Prop :=
  exists d ds, sub (d :: ds) ts /\ back_to_back (m_key m) 0 (d :: ds) /\ flat_map t_data (d :: ds) = m_payload m /\ t_size d = length (m_payload m).

(* the message with the key that a device has begun to put together, if any: the bytes so far are the first c_offset of c_payload *)
Definition unfinished (k : key) (i : inbound) : option complete :=
  List.find (fun c => negb (is_complete c) && key_eqb k (c_type c, c_corr c)) (i_cache i).
(* the datagram leaves a gap to, or runs over the end of, the message it belongs to *)
Definition misfit (t : transport) (i : inbound) : Prop :=
  match unfinished (t_key t) i with
  | Some c => c_offset c < t_offset t \/ (t_offset t = c_offset c /\ length (c_payload c) < t_offset t + length (t_data t))
  | None => 0 < t_offset t \/ t_size t < length (t_data t)
  end.

(* what a selection asks for *)
Definition wanted (s : sel) (m : msg) : Prop :=
  match s with
  | Any => True
  | Of_type t => m_type m = t
  | Of_types ts => In (m_type m) ts
  | Of_corr c => m_corr m = c
  | Of_type_corr t c => m_type m = t /\ m_corr m = c
  | Of_types_corr ts c => In (m_type m) ts /\ m_corr m = c
  | Where p => p m = true
  end.
