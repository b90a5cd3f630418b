(* C52: a connection between domains carries messages. *)
From Coq Require Import ZArith List.
From Verif Require Import Bytes TcpModel.
Import ListNotations.
Local Open Scope Z_scope.

(* the messages domains send: of a type, with a correlation and some payload *)
Definition good (m : tmsg) : Prop :=
  tm_type m <> 0 /\ - 2 ^ 63 <= tm_type m < 2 ^ 63 /\ length (tm_corr m) = 16%nat /\ Forall is_byte (tm_corr m) /\
  (0 < length (tm_payload m))%nat /\ Z.of_nat (length (tm_payload m)) < 2 ^ 63.
Definition posts (l : list event) : list tmsg := flat_map (fun e => match e with Post m => [m] | _ => [] end) l.
Definition gots (o : list report) : list tmsg := flat_map (fun x => match x with Got m => [m] | _ => [] end) o.
Definition no_push (l : list event) : Prop := forall m, ~ In (Push m) l.
(* the complete messages in the cache: they can be taken *)
Definition here (h : BoModel.host) (n : connection) : list tmsg := map (msg_of h) (filter (is_complete h) (n_cache n)).
(* the messages of a kind; requests are by kind if they ask for what a message is, by type and correlation *)
Definition of_kind (t : Z) (c : list Z) (m : tmsg) : bool := (tm_type m =? t) && if list_eq_dec Z.eq_dec (tm_corr m) c then true else false.
Definition by_kind (p : tmsg -> bool) : Prop := forall m m', tm_type m = tm_type m' -> tm_corr m = tm_corr m' -> p m = p m'.

Definition takes_by_kind (l : list event) : Prop := forall p, In (Take p) l -> by_kind p.
(* what isn't sent yet *)
Definition unsent (c : complete) : list Z := skipn (c_offset c) (c_head c ++ c_payload c).
Definition bytes_out (n : connection) : nat := length (flat_map unsent (n_out n)).
