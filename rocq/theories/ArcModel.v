(* The native and the network binary archives: middleware/common/include/common/serialize/{value.h,native/binary.h,native/network.h} and
   memory.h. The type of what is written and read is a value of [ty]. Memory allocation succeeds; assert is not compiled in (release builds).
   Not modelled: unordered containers, the archives for text formats. *)
From Coq Require Import ZArith List Bool Arith.
From Verif Require Import Bytes BoModel.
Import ListNotations.
Local Open Scope Z_scope.

(* a value; an XID has its format, the two lengths and the used data (xa.h:20-25) *)
Inductive val :=
| V_num (x : Z)                 (* arithmetic values, enumerators (value.h:270-294), durations as the number of their units *)
| V_bytes (l : list Z)          (* strings, binaries, arrays of bytes, uuid, paths (value.h:676-697) *)
| V_none | V_some (v : val)     (* std::optional *)
| V_list (l : list val)         (* containers, in the order of iteration *)
| V_unit | V_pair (a b : val)   (* the members of a composite or a tuple *)
| V_xid (format gtrid bqual : Z) (data : list Z).
(* how a type is serialized *)
Inductive ty :=
| T_num (s : scalar)            (* concepts::arithmetic and enums *)
| T_bytes                       (* std::string, std::u8string, platform::binary::type: with its size *)
| T_fixed (n : nat)             (* binary::span::Fixed: arrays of bytes, uuid.h:51 *)
| T_duration (unit : Z)         (* std::chrono::duration of so many nanoseconds, value.h:604-649; time points too *)
| T_optional (t : ty)           (* value.h:504-600 *)
| T_sequence (t : ty)           (* concepts::container::sequence, value.h:386-440 *)
| T_insert (multi : bool) (lt : val -> val -> bool) (t : ty) (* containers with insert: std::set, map, multiset, multimap, with their ordering *)
| T_unit | T_pair (a b : ty)    (* the members of a composite, in order: value.h:170-193; strong::Type has one, strong/type.h:122 *)
| T_tuple (n : nat) (t : ty)    (* value.h:349-384: std::tuple, std::pair: the number of members, and the members *)
| T_xid.                        (* common/transaction/id.h:194-212 *)
(* a composite of some members *)
Fixpoint members (l : list ty) : ty := match l with [] => T_unit | t :: r => T_pair t (members r) end.
Fixpoint values (l : list val) : val := match l with [] => V_unit | v :: r => V_pair v (values r) end.

(* the archives: on a host *)
Inductive policy := Native (h : host) | Network (h : host).

(* ---------------------------------------------------------------- write *)
(* binary.h:40-50 with memory.h:52-63; network.h:47-66 *)
Definition write_num (p : policy) (s : scalar) (x : Z) : list Z :=
  match p with
  | Native h => memory h (width s) (to_word (width s) x)
  | Network h => memory h (width s) (encode h s x)
  end.
Definition write_size (p : policy) (n : Z) : list Z := write_num p T_size n.
(* value.h; binary.h:66-140 *)
Fixpoint write (p : policy) (t : ty) (v : val) : list Z :=
  match t, v with
  | T_num s, V_num x => write_num p s x
  | T_bytes, V_bytes l => write_size p (Z.of_nat (length l)) ++ l
  | T_fixed _, V_bytes l => l
  | T_duration u, V_num x => write_num p T_long (x * u)
  | T_optional _, V_none => write_num p T_bool 0
  | T_optional t, V_some v => write_num p T_bool 1 ++ write p t v
  | T_sequence t, V_list l => write_size p (Z.of_nat (length l)) ++ flat_map (write p t) l
  | T_insert _ _ t, V_list l => write_size p (Z.of_nat (length l)) ++ flat_map (write p t) l
  | T_pair a b, V_pair v w => write p a v ++ write p b w
  | T_tuple n t, v => write_size p (Z.of_nat n) ++ write p t v
  | T_xid, V_xid f g b d => write_num p T_long f ++ (if f =? -1 then [] else write_num p T_long g ++ write_num p T_long b ++ d)
  | _, _ => []
  end.

(* ---------------------------------------------------------------- read *)
(* what reading gives. Undefined: memory outside of the buffer is read, or outside of an XID is written. Terminates: casual::assertion,
   assert.h:22-30. Raises: std::length_error of resize with a negative size, std::invalid_argument of another size of a tuple *)
Inductive outcome (A : Type) := Read (a : A) (rest : list Z) | Undefined | Terminates | Raises.
Arguments Read {A}. Arguments Undefined {A}. Arguments Terminates {A}. Arguments Raises {A}.
Definition bind {A B} (x : outcome A) (f : A -> list Z -> outcome B) : outcome B :=
  match x with Read a d => f a d | Undefined => Undefined | Terminates => Terminates | Raises => Raises end.
(* the value that a word of the host represents; a bool is given as true or false *)
Definition of_word (s : scalar) (w : Z) : Z :=
  match s with
  | T_bool => if w =? 0 then 0 else 1
  | T_uchar | T_float | T_double | T_usize => w
  | _ => to_signed (width s) w
  end.
(* binary.h:52-62, network.h:69-96, with memory::copy, memory.h:84-97 *)
Definition read_num (p : policy) (s : scalar) (d : list Z) : outcome Z :=
  if (length d <? width s)%nat then Undefined
  else Read (match p with
             | Native h => of_word s (word h (firstn (width s) d))
             | Network h => decode h s (word h (firstn (width s) d))
             end) (skipn (width s) d).
Definition read_size (p : policy) (d : list Z) : outcome Z := read_num p T_size d.
(* consume, binary.h:205-214 *)
Definition consume (n : Z) (d : list Z) : outcome (list Z) :=
  if Z.of_nat (length d) <? n then Terminates else Read (firstn (Z.to_nat n) d) (skipn (Z.to_nat n) d).
(* the insertion of one element in an ordered container: at the upper bound if many are allowed *)
Fixpoint insert_at (before : val -> bool) (x : val) (l : list val) : list val :=
  match l with [] => [x] | y :: r => if before y then x :: y :: r else y :: insert_at before x r end.
Definition insert (multi : bool) (lt : val -> val -> bool) (x : val) (l : list val) : list val :=
  if multi then insert_at (fun y => lt x y) x l
  else if existsb (fun y => negb (lt x y) && negb (lt y x)) l then l else insert_at (fun y => lt x y) x l.
(* a value-initialized object *)
Fixpoint default (t : ty) : val :=
  match t with
  | T_num _ | T_duration _ => V_num 0
  | T_bytes => V_bytes []
  | T_fixed n => V_bytes (repeat 0 n)
  | T_optional _ => V_none
  | T_sequence _ | T_insert _ _ _ => V_list []
  | T_unit => V_unit
  | T_pair a b => V_pair (default a) (default b)
  | T_tuple _ t => default t
  | T_xid => V_xid (-1) 0 0 []
  end.
Definition first_of (a : ty) (old : val) : val := match old with V_pair x _ => x | _ => default a end.
Definition second_of (b : ty) (old : val) : val := match old with V_pair _ y => y | _ => default b end.
Definition list_of (old : val) : list val := match old with V_list l => l | _ => [] end.
(* value::read, of a type into an object that has a value *)
Fixpoint read (p : policy) (t : ty) (old : val) (d : list Z) : outcome val :=
  match t with
  | T_num s => bind (read_num p s d) (fun x d => Read (V_num x) d)
  | T_bytes => bind (read_size p d) (fun n d => if n <? 0 then Raises else bind (consume n d) (fun l d => Read (V_bytes l) d))
  | T_fixed n => bind (consume (Z.of_nat n) d) (fun l d => Read (V_bytes l) d)
  | T_duration u => bind (read_num p T_long d) (fun x d => Read (V_num (Z.quot x u)) d)
  | T_optional t => bind (read_num p T_bool d) (fun has d => if has =? 0 then Read old d else bind (read p t (default t) d) (fun v d => Read (V_some v) d))
  | T_sequence t =>
      bind (read_size p d) (fun n d =>
        if n <? 0 then Raises
        else bind ((fix loop (k : nat) (olds : list val) (d : list Z) : outcome (list val) :=
                match k with
                | O => Read [] d
                | S k => bind (read p t (hd (default t) olds) d) (fun v d => bind (loop k (tl olds) d) (fun vs d => Read (v :: vs) d))
                end) (Z.to_nat n) (list_of old) d) (fun l d => Read (V_list l) d))
  | T_insert multi lt t =>
      bind (read_size p d) (fun n d =>
        (fix loop (k : nat) (l : list val) (d : list Z) : outcome val :=
           match k with
           | O => Read (V_list l) d
           | S k => bind (read p t (default t) d) (fun v d => loop k (insert multi lt v l) d)
           end) (Z.to_nat n) (list_of old) d)
  | T_unit => Read V_unit d
  | T_pair a b => bind (read p a (first_of a old) d) (fun v d => bind (read p b (second_of b old) d) (fun w d => Read (V_pair v w) d))
  | T_tuple n t => bind (read_size p d) (fun m d => if m =? Z.of_nat n then read p t old d else Raises)
  | T_xid =>
      bind (read_num p T_long d) (fun f d =>
        if f =? -1 then Read (V_xid (-1) 0 0 []) d
        else bind (read_num p T_long d) (fun g d => bind (read_num p T_long d) (fun b d =>
               (* the data is read to xid.data, with room for 128 bytes, as many as the lengths say *)
               if g + b <? 0 then Undefined
               else bind (consume (g + b) d) (fun l d => if 128 <? g + b then Undefined else Read (V_xid f g b l) d))))
  end.
