(* Network byte order: middleware/common/{include/common/network/byteorder.h,source/network/byteorder.cpp}.
   Simplified: a float or double is its bit pattern (byteorder.cpp:156-186 reinterprets the object as a word); undefined behaviour of that
   reinterpretation (aliasing) is not modelled. *)
From Coq Require Import ZArith List Bool.
From Verif Require Import Bytes.
Import ListNotations.
Local Open Scope Z_scope.

(* byteorder.cpp:32-57: BYTE_ORDER *)
Inductive host := Little | Big.
(* the object representation of an n byte word on a host, and the word that some bytes represent *)
Definition memory (h : host) (n : nat) (w : Z) : list Z := match h with Little => le n w | Big => be n w end.
Definition word (h : host) (l : list Z) : Z := match h with Little => un_le l | Big => un_be l end.

(* the scalar types with a transcode, byteorder.h:28-80; the _size types are those of size::encode and size::decode, byteorder.h:107-124,
   for a signed (platform::size::type) and an unsigned (std::size_t) size *)
Inductive scalar := T_bool | T_char | T_uchar | T_short | T_int | T_long | T_longlong | T_float | T_double | T_size | T_usize.
(* bytes<T>, byteorder.h:99-103 *)
Definition width (t : scalar) : nat :=
  match t with
  | T_bool | T_char | T_uchar => 1
  | T_short => 2
  | T_int | T_float => 4
  | _ => 8
  end.
(* __bswap_16, __bswap_32, __bswap_64: the bytes of the word in the other order *)
Definition bswap (n : nat) (w : Z) : Z := un_le (rev (le n w)).
(* HTOBE16.. and BE16TOH.., byteorder.cpp:32-57 *)
Definition htobe (h : host) (n : nat) (w : Z) : Z := match h with Little => bswap n w | Big => w end.
Definition betoh (h : host) (n : nat) (w : Z) : Z := match h with Little => bswap n w | Big => w end.
(* the conversion of a value to the unsigned word of its size, and of such a word to a signed value (two's complement) *)
Definition to_word (n : nat) (v : Z) : Z := v mod radix n.
Definition to_signed (n : nat) (w : Z) : Z := if w <? radix n / 2 then w else w - radix n.

(* transcode<T>::encode, byteorder.h:34 and byteorder.cpp:122-186; size::encode, byteorder.h:113 *)
Definition encode (h : host) (t : scalar) (v : Z) : Z :=
  match t with
  | T_bool | T_char | T_uchar => to_word 1 v
  | T_usize => htobe h 8 (to_word 8 (to_signed 8 (to_word 8 v)))
  | _ => htobe h (width t) (to_word (width t) v)
  end.
(* transcode<T>::decode, byteorder.h:35 and byteorder.cpp:122-186; size::decode, byteorder.h:119 *)
Definition decode (h : host) (t : scalar) (w : Z) : Z :=
  match t with
  | T_bool => if w =? 0 then 0 else 1
  | T_char => to_signed 1 w
  | T_uchar => w
  | T_float | T_double => betoh h (width t) w
  | T_usize => to_word 8 (to_signed 8 (betoh h 8 w))
  | _ => to_signed (width t) (betoh h (width t) w)
  end.
