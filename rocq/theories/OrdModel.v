(* The order buffer, CORDER: middleware/buffer/source/order.cpp. One buffer; the handle is valid and allocation succeeds. *)
From Coq Require Import ZArith List Bool.
From Verif Require Import Bytes BoModel.
Import ListNotations.
Local Open Scope Z_scope.

(* order.cpp:38-101: payload.data is a vector with size utilized() and capacity capacity(); b_slack are the bytes of the allocation behind
   its end: what was there before, or anything at all. b_cursor is selector, read back as a signed number (order.cpp:72-75) *)
Record buffer := mk_b { b_data : list Z; b_slack : list Z; b_cursor : Z }.
Definition utilized (b : buffer) : Z := Z.of_nat (length (b_data b)).
Definition reserved (b : buffer) : Z := Z.of_nat (length (b_data b) + length (b_slack b)).

(* what is added and got: a scalar of a type, a string (the bytes before the terminator), a block of bytes with the size stated for it *)
Inductive value := V_scalar (t : scalar) (v : Z) | V_string (s : list Z) | V_binary (size : Z) (d : list Z).
Inductive kind := K_scalar (t : scalar) | K_string | K_binary.

(* CASUAL_ORDER_*, casual/buffer/order.h:17-31 *)
Definition SUCCESS : Z := 0.
Definition INVALID_ARGUMENT : Z := 2.
Definition OUT_OF_BOUNDS : Z := 8.
(* Code c v: the code is returned, v has been stored for the caller; Undefined: memory outside of the object is read, or a signed
   computation overflows *)
Inductive result := Code (c : Z) (v : option value) | Undefined.

(* std::vector: bytes are inserted last; if they don't fit the vector moves to new memory, with any bytes fresh behind the end *)
Definition insert_last (d fresh : list Z) (b : buffer) : buffer :=
  if (length d <=? length (b_slack b))%nat then mk_b (b_data b ++ d) (skipn (length d) (b_slack b)) (b_cursor b)
  else mk_b (b_data b ++ d) fresh (b_cursor b).

(* the bytes of a word in network order, add::append, order.cpp:212-216 *)
Definition bytes_of (h : host) (t : scalar) (v : Z) : list Z := memory h (width t) (encode h t v).

(* add::data and append, order.cpp:212-268, and casual_order_add_*, order.cpp:376-424. The argument of strlen ends at the first zero byte *)
Fixpoint until_nul (s : list Z) : list Z := match s with [] => [] | c :: r => if c =? 0 then [] else c :: until_nul r end.
Definition add (h : host) (v : value) (fresh : list Z) (b : buffer) : buffer * result :=
  match v with
  | V_scalar t x => (insert_last (bytes_of h t x) fresh b, Code SUCCESS None)
  | V_string s => (insert_last (until_nul s ++ [0]) fresh b, Code SUCCESS None)
  | V_binary size d =>
      if size <? 0 then (b, Code INVALID_ARGUMENT None)
      else if Z.of_nat (length d) <? size then (b, Undefined)
      else (insert_last (firstn (Z.to_nat size) d) fresh (insert_last (bytes_of h T_long size) fresh b), Code SUCCESS None)
  end.

(* add::reset, order.cpp:198-210: resize( 0), the bytes stay in the memory *)
Definition add_prepare (b : buffer) : buffer := mk_b [] (b_data b ++ b_slack b) (b_cursor b).
(* get::reset, order.cpp:274-286 *)
Definition get_prepare (b : buffer) : buffer := mk_b (b_data b) (b_slack b) 0.

(* the memory of the buffer from a position on; None: the position isn't in it *)
Definition from (p : Z) (b : buffer) : option (list Z) :=
  if (p <? 0) || (reserved b <? p) then None else Some (skipn (Z.to_nat p) (b_data b ++ b_slack b)).
(* select of a scalar, order.cpp:288-294 *)
Definition select_scalar (h : host) (t : scalar) (m : list Z) : option Z :=
  if (length m <? width t)%nat then None else Some (decode h t (word h (firstn (width t) m))).
(* std::strlen *)
Fixpoint strlen (m : list Z) : option nat :=
  match m with [] => None | c :: r => if c =? 0 then Some O else option_map S (strlen r) end.
Definition max_long : Z := 2 ^ 63 - 1.
(* the three select, order.cpp:288-308: the value and the number of bytes read *)
Definition select (h : host) (k : kind) (m : list Z) : option (value * Z) :=
  match k with
  | K_scalar t => match select_scalar h t m with Some x => Some (V_scalar t x, Z.of_nat (width t)) | None => None end
  | K_string => match strlen m with Some n => Some (V_string (firstn n m), Z.of_nat n + 1) | None => None end
  | K_binary => match select_scalar h T_long m with
                | Some size => if max_long <? 8 + size then None else Some (V_binary size (firstn (Z.to_nat size) (skipn 8 m)), 8 + size)
                | None => None
                end
  end.
(* get::data, order.cpp:310-342, and casual_order_get_*, order.cpp:431-478 *)
Definition get (h : host) (k : kind) (b : buffer) : buffer * result :=
  match from (b_cursor b) b with
  | None => (b, Undefined)
  | Some m =>
      match select h k m with
      | None => (b, Undefined)
      | Some (v, size) =>
          let consumed := b_cursor b + size in
          if max_long <? consumed then (b, Undefined)
          else if utilized b <? consumed then (b, Code OUT_OF_BOUNDS (Some v))
          else (mk_b (b_data b) (b_slack b) consumed, Code SUCCESS (Some v))
      end
  end.

(* the operations of the api on a buffer; the environment gives the bytes of new memory *)
Inductive op := Add (v : value) (fresh : list Z) | Get (k : kind) | Add_prepare | Get_prepare.
Definition step (h : host) (o : op) (b : buffer) : buffer * result :=
  match o with
  | Add v f => add h v f b
  | Get k => get h k b
  | Add_prepare => (add_prepare b, Code SUCCESS None)
  | Get_prepare => (get_prepare b, Code SUCCESS None)
  end.
Fixpoint run (h : host) (l : list op) (b : buffer) : buffer * list result :=
  match l with
  | [] => (b, [])
  | o :: r => let (b1, x) := step h o b in let (b2, xs) := run h r b1 in (b2, x :: xs)
  end.
(* Allocator::allocate, order.cpp:111-118 *)
Definition allocated (slack : list Z) : buffer := mk_b [] slack 0.
