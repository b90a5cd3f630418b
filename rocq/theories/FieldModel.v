(* The field buffer, CFIELD: middleware/buffer/source/field.cpp. Memory allocation succeeds; pointers given by the caller are valid and don't
   point into the buffer. Not modelled: capacity, the repository of names, printing and matching. Type numbers are taken as they are (id /
   CASUAL_FIELD_TYPE_BASE is converted to int in some places, which matters only for ids that can't be added). *)
From Coq Require Import ZArith List Bool Arith.
From Verif Require Import Bytes BoModel.
Import ListNotations.
Local Open Scope Z_scope.

(* casual/buffer/field.h:18-49 *)
Definition SUCCESS : Z := 0.
Definition INVALID_HANDLE : Z := 1.
Definition INVALID_ARGUMENT : Z := 2.
Definition OUT_OF_BOUNDS : Z := 8.
Definition TYPE_BASE : Z := 33554432.
Inductive kind := Short | Long | Char | Float | Double | String | Binary.
Definition number (k : kind) : Z := match k with Short => 1 | Long => 2 | Char => 3 | Float => 4 | Double => 5 | String => 6 | Binary => 7 end.
Definition kind_of_number (n : Z) : option kind :=
  match n with 1 => Some Short | 2 => Some Long | 3 => Some Char | 4 => Some Float | 5 => Some Double | 6 => Some String | 7 => Some Binary | _ => None end.
(* id / CASUAL_FIELD_TYPE_BASE; C++ division rounds to zero *)
Definition type_of (id : Z) : Z := Z.quot id TYPE_BASE.
Definition scalar_of (k : kind) : option scalar :=
  match k with Short => Some T_short | Long => Some T_long | Char => Some T_char | Float => Some T_float | Double => Some T_double | _ => None end.

(* a value: a number (floats by their bits), the bytes of a string before the terminator, or bytes *)
Inductive value := V_number (k : kind) (v : Z) | V_string (s : list Z) | V_binary (d : list Z).
Definition kind_of (v : value) : kind := match v with V_number k _ => k | V_string _ => String | V_binary _ => Binary end.
(* local::Buffer, field.cpp:69-132: the payload, and the index: a std::map from id to the offsets of the occurrences *)
Record buffer := mk_f { f_data : list Z; f_index : list (Z * list nat) }.
(* what a function gives: a code and what is stored through the pointers; Undefined: memory outside of the buffer is read; Hangs: no return *)
Inductive out := Nothing | Value (v : value) | Number (n : Z) | Place (id i : Z) | Sized (v : option value) (n : option Z).
Inductive result := Code (c : Z) (o : out) | Undefined | Hangs.

(* ---------------------------------------------------------------- the index: std::map *)
(* std::map::find *)
Fixpoint find_id (id : Z) (x : list (Z * list nat)) : option (list nat) :=
  match x with [] => None | (i, o) :: r => if i =? id then Some o else find_id id r end.
(* index[ id].push_back( offset) *)
Fixpoint push_id (id : Z) (p : nat) (x : list (Z * list nat)) : list (Z * list nat) :=
  match x with
  | [] => [(id, [p])]
  | (i, o) :: r => if i =? id then (i, o ++ [p]) :: r else if id <? i then (id, [p]) :: (i, o) :: r else (i, o) :: push_id id p r
  end.
(* index.at( id).at( occurrence): None is std::out_of_range; a negative occurrence is converted to a number larger than any size *)
Definition at_ (id i : Z) (x : list (Z * list nat)) : option nat :=
  match find_id id x with
  | None => None
  | Some o => if i <? 0 then None else nth_error o (Z.to_nat i)
  end.
(* all offsets beyond one are changed, field.cpp:391-394, 471-474 *)
Definition shift (beyond : nat) (f : nat -> nat) (x : list (Z * list nat)) : list (Z * list nat) :=
  map (fun e => (fst e, map (fun p => if (beyond <? p)%nat then f p else p) (snd e))) x.
(* occurrences.erase(..), and index.erase( id) if none are left, field.cpp:378-383 *)
Fixpoint drop {A} (n : nat) (l : list A) : list A := match l, n with [], _ => [] | _ :: r, O => r | a :: r, S k => a :: drop k r end.
Fixpoint erase_id (id : Z) (n : nat) (x : list (Z * list nat)) : list (Z * list nat) :=
  match x with
  | [] => []
  | (i, o) :: r => if i =? id then (match drop n o with [] => r | o' => (i, o') :: r end) else (i, o) :: erase_id id n r
  end.

(* ---------------------------------------------------------------- the memory *)
(* item_offset, size_offset, data_offset, field.cpp:50-55 *)
Definition size_offset : nat := 8.
Definition data_offset : nat := 16.
(* local::decode, field.cpp:61-67: None, not inside the payload *)
Definition decode_at (h : host) (t : scalar) (p : nat) (d : list Z) : option Z :=
  if (length d <? p + width t)%nat then None else Some (decode h t (word h (firstn (width t) (skipn p d)))).
(* add::append, field.cpp:227-253: what is written *)
Definition record (h : host) (id : Z) (bytes : list Z) : list Z :=
  memory h 8 (encode h T_long id) ++ memory h 8 (encode h T_long (Z.of_nat (length bytes))) ++ bytes.
Fixpoint until_nul (s : list Z) : list Z := match s with [] => [] | c :: r => if c =? 0 then [] else c :: until_nul r end.
(* add::insert, field.cpp:255-269, set::update, field.cpp:477-495: the bytes of a value *)
Definition bytes_of (h : host) (v : value) : list Z :=
  match v with
  | V_number k x => match scalar_of k with Some t => memory h (width t) (encode h t x) | None => [] end
  | V_string s => until_nul s ++ [0]
  | V_binary d => d
  end.
(* get::select, field.cpp:310-334: the value at an offset. Of a string the address is given; the caller reads to the first zero *)
Fixpoint strlen (m : list Z) : option nat := match m with [] => None | c :: r => if c =? 0 then Some O else option_map S (strlen r) end.
Definition select (h : host) (k : kind) (p : nat) (d : list Z) : option value :=
  match scalar_of k with
  | Some t => match decode_at h t (p + data_offset) d with Some x => Some (V_number k x) | None => None end
  | None =>
      match k with
      | String => match strlen (skipn (p + data_offset) d) with Some n => Some (V_string (firstn n (skipn (p + data_offset) d))) | None => None end
      | _ => match decode_at h T_long (p + size_offset) d with
             | Some size => if (size <? 0) || (Z.of_nat (length d) <? Z.of_nat (p + data_offset) + size) then None
                            else Some (V_binary (firstn (Z.to_nat size) (skipn (p + data_offset) d)))
             | None => None
             end
      end
  end.
(* the constructor, field.cpp:73-96, of a payload that is received, copied or inserted: the index is made from the bytes. A cursor can't pass
   the same position twice without doing so forever *)
Inductive built := Built (b : buffer) | Bad (* std::invalid_argument *) | B_undefined | B_hangs.
Fixpoint index_from (h : host) (fuel : nat) (p : nat) (d : list Z) (x : list (Z * list nat)) : built :=
  if (p <? length d)%nat then
    match fuel with
    | O => B_hangs
    | S fuel =>
        match decode_at h T_long p d, decode_at h T_long (p + size_offset) d with
        | Some id, Some size =>
            let q := Z.of_nat (p + data_offset) + size in
            if q <? 0 then B_undefined else index_from h fuel (Z.to_nat q) d (push_id id p x)
        | _, _ => B_undefined
        end
    end
  else if (p =? length d)%nat then Built (mk_f d x) else Bad.
Definition construct (h : host) (d : list Z) : built := index_from h (S (length d)) 0 d [].

(* ---------------------------------------------------------------- the functions on one buffer *)
(* add::data, field.cpp:271-299 *)
Definition append (h : host) (id : Z) (v : value) (b : buffer) : buffer :=
  mk_f (f_data b ++ record h id (bytes_of h v)) (push_id id (length (f_data b)) (f_index b)).
Definition add (h : host) (id : Z) (v : value) (b : buffer) : buffer * result :=
  if negb (number (kind_of v) =? type_of id) then (b, Code INVALID_ARGUMENT Nothing) else (append h id v b, Code SUCCESS Nothing).
(* casual_field_add_empty, field.cpp:901-923 *)
Definition empty_of (k : kind) : value := match k with String => V_string [] | Binary => V_binary [] | _ => V_number k 0 end.
Definition add_empty (h : host) (id : Z) (b : buffer) : buffer * result :=
  match kind_of_number (type_of id) with None => (b, Code INVALID_ARGUMENT Nothing) | Some k => add h id (empty_of k) b end.
(* get::data, field.cpp:337-357 *)
Definition get (h : host) (id i : Z) (k : kind) (b : buffer) : result :=
  if negb (number k =? type_of id) then Code INVALID_ARGUMENT Nothing
  else match at_ id i (f_index b) with
       | None => Code OUT_OF_BOUNDS Nothing
       | Some p => match select h k p (f_data b) with Some v => Code SUCCESS (Value v) | None => Undefined end
       end.
(* explore::value and existence, field.cpp:524-580 *)
Definition exists_ (id i : Z) (b : buffer) : result :=
  match at_ id i (f_index b) with None => Code OUT_OF_BOUNDS Nothing | Some _ => Code SUCCESS Nothing end.
Definition stored_size (h : host) (id i : Z) (b : buffer) : result :=
  match at_ id i (f_index b) with
  | None => Code OUT_OF_BOUNDS Nothing
  | Some p => match decode_at h T_long (p + size_offset) (f_data b) with Some n => Code SUCCESS (Number n) | None => Undefined end
  end.
(* casual_field_plain_type_host_size, field.cpp:1712-1743 *)
Definition host_size (n : Z) : option Z :=
  match kind_of_number n with
  | Some k => match scalar_of k with Some t => Some (Z.of_nat (width t)) | None => None end
  | None => None
  end.
(* casual_field_explore_value with a count, field.cpp:797-821. The count is set before it's known that the field exists *)
Definition explore_value (h : host) (id i : Z) (b : buffer) : result :=
  if (type_of id =? number String) || (type_of id =? number Binary) then stored_size h id i b
  else match host_size (type_of id) with
       | None => Code INVALID_ARGUMENT Nothing
       | Some n => match exists_ id i b with Code c _ => Code c (Number n) | r => r end
       end.
(* casual_field_get_value, field.cpp:962-1019, with somewhere to store the value; the length of a string includes its terminator *)
Definition get_value (h : host) (id i : Z) (count : option Z) (b : buffer) : result :=
  let counted size := match count with None => Some None | Some c => if c <? size then None else Some (Some size) end in
  match kind_of_number (type_of id) with
  | None => Code INVALID_ARGUMENT (Sized None count)
  | Some k =>
      match scalar_of k with
      | None =>
          match at_ id i (f_index b) with
          | None => Code OUT_OF_BOUNDS (Sized None count)
          | Some p => match decode_at h T_long (p + size_offset) (f_data b), select h Binary p (f_data b) with
                      | Some size, Some (V_binary d) =>
                          match counted size with None => Code INVALID_ARGUMENT (Sized None count) | Some c => Code SUCCESS (Sized (Some (V_binary d)) c) end
                      | _, _ => Undefined
                      end
          end
      | Some t =>
          match counted (Z.of_nat (width t)) with
          | None => Code INVALID_ARGUMENT (Sized None count)
          | Some c => match get h id i k b with Code x (Value v) => Code x (Sized (Some v) c) | Code x _ => Code x (Sized None c) | r => r end
          end
      end
  end.
(* set::change, field.cpp:441-475, and set::data, field.cpp:497-522 *)
Definition set (h : host) (id i : Z) (v : value) (b : buffer) : buffer * result :=
  if negb (number (kind_of v) =? type_of id) then (b, Code INVALID_ARGUMENT Nothing)
  else match at_ id i (f_index b) with
       | None => (b, Code OUT_OF_BOUNDS Nothing)
       | Some p =>
           match decode_at h T_long (p + size_offset) (f_data b) with
           | None => (b, Undefined)
           | Some current =>
               if (current <? 0) || (Z.of_nat (length (f_data b)) <? Z.of_nat (p + data_offset) + current) then (b, Undefined)
               else let d := f_data b in let new := bytes_of h v in let n := Z.to_nat current in
                    (mk_f (firstn (p + size_offset) d ++ memory h 8 (encode h T_long (Z.of_nat (length new))) ++ new ++ skipn (p + data_offset + n) d)
                          (shift p (fun q => q + length new - n)%nat (f_index b)), Code SUCCESS Nothing)
           end
       end.
(* casual_field_put_value, field.cpp:1099-1118 *)
Fixpoint put (h : host) (fuel : nat) (id i : Z) (v : value) (b : buffer) : buffer * result :=
  if i <? 0 then add h id v b
  else let (b1, r) := set h id i v b in
       match r with
       | Code c _ =>
           if c =? OUT_OF_BOUNDS then
             let (b2, r2) := add_empty h id b1 in
             match r2 with
             | Code c2 _ => if negb (c2 =? SUCCESS) then (b2, r2) else match fuel with O => (b2, Hangs) | S f => put h f id i v b2 end
             | _ => (b2, r2)
             end
           else (b1, r)
       | _ => (b1, r)
       end.
Definition put_value (h : host) (id i : Z) (v : value) (b : buffer) : buffer * result := put h (S (Z.to_nat i)) id i v b.
(* cut::remove and cut::data, field.cpp:363-420 *)
Definition remove (h : host) (id i : Z) (b : buffer) : buffer * result :=
  if id <=? 0 then (b, Code INVALID_ARGUMENT Nothing)
  else match at_ id i (f_index b) with
       | None => (b, Code OUT_OF_BOUNDS Nothing)
       | Some p =>
           match decode_at h T_long (p + size_offset) (f_data b) with
           | None => (b, Undefined)
           | Some size =>
               if (size <? - Z.of_nat data_offset) || (Z.of_nat (length (f_data b)) <? Z.of_nat (p + data_offset) + size) then (b, Undefined)
               else let n := Z.to_nat (Z.of_nat data_offset + size) in
                    (mk_f (firstn p (f_data b) ++ skipn (p + n) (f_data b))
                          (shift p (fun q => q - n)%nat (erase_id id (Z.to_nat i) (f_index b))), Code SUCCESS Nothing)
           end
       end.
(* explore::count, field.cpp:582-618 *)
Definition count (id : Z) (b : buffer) : Z := match find_id id (f_index b) with Some o => Z.of_nat (length o) | None => 0 end.
Definition count_all (b : buffer) : Z := Z.of_nat (list_sum (map (fun e => length (snd e)) (f_index b))).
(* casual_field_remove_id, field.cpp:1794-1809: the last occurrence first; the codes of cut::data are ignored *)
Fixpoint remove_last (h : host) (n : nat) (id : Z) (b : buffer) : buffer * result :=
  match n with
  | O => (b, Code SUCCESS Nothing)
  | S k => let (b1, r) := remove h id (Z.of_nat k) b in match r with Code _ _ => remove_last h k id b1 | _ => (b1, r) end
  end.
Definition remove_id (h : host) (id : Z) (b : buffer) : buffer * result := remove_last h (Z.to_nat (count id b)) id b.
(* iterate::first and next, field.cpp:624-681, casual_field_next, field.cpp:1816-1832 *)
Fixpoint after (id : Z) (x : list (Z * list nat)) : option Z :=
  match x with [] => None | (i, _) :: r => if i =? id then match r with [] => None | (j, _) :: _ => Some j end else after id r end.
Definition next (id i : Z) (b : buffer) : result :=
  if id =? 0 then match f_index b with [] => Code OUT_OF_BOUNDS (Place id i) | (j, _) :: _ => Code SUCCESS (Place j 0) end
  else match find_id id (f_index b) with
       | None => Code INVALID_ARGUMENT (Place id i)
       | Some o => if i + 1 <? Z.of_nat (length o) then Code SUCCESS (Place id (i + 1))
                   else match after id (f_index b) with Some j => Code SUCCESS (Place j 0) | None => Code OUT_OF_BOUNDS (Place id (i + 1)) end
       end.
(* copy::memory, field.cpp:713-739 *)
Definition memory_copy (h : host) (d : list Z) (b : buffer) : buffer * result :=
  match construct h d with
  | Built b' => (b', Code SUCCESS Nothing)
  | Bad => (b, Code INVALID_ARGUMENT Nothing)
  | B_undefined => (b, Undefined)
  | B_hangs => (b, Hangs)
  end.

(* ---------------------------------------------------------------- the buffers of a process *)
(* the handle of a buffer is where it is in the list; nothing is freed *)
Inductive op :=
| Allocate                                       (* tpalloc: field.cpp:149-158 *)
| Add (k : nat) (id : Z) (v : value)             (* casual_field_add_char .. add_binary *)
| Add_empty (k : nat) (id : Z)
| Get (k : nat) (id i : Z) (t : kind)            (* casual_field_get_char .. get_binary *)
| Get_value (k : nat) (id i : Z) (n : option Z)
| Explore_value (k : nat) (id i : Z)
| Set_ (k : nat) (id i : Z) (v : value)          (* casual_field_set_char .. set_binary *)
| Put_value (k : nat) (id i : Z) (v : value)     (* casual_field_put_value; the value is of the type of the id *)
| Remove (k : nat) (id i : Z)                    (* casual_field_remove_occurrence *)
| Remove_id (k : nat) (id : Z)
| Remove_all (k : nat)
| Count (k : nat) (id : Z)                       (* casual_field_occurrences_of_id *)
| Count_all (k : nat)
| Next (k : nat) (id i : Z)
| Copy (k from : nat)                            (* casual_field_copy_buffer *)
| Copy_memory (k from : nat)                     (* casual_field_copy_memory of the used bytes of another buffer *)
| Move (k : nat).                                (* the payload is sent to another process: adopt, field.cpp:143-146 *)
(* the buffer of a handle, pool().get(..) raises if there's none *)
Definition on (k : nat) (s : list buffer) (f : buffer -> buffer * result) : list buffer * result :=
  match nth_error s k with
  | None => (s, Code INVALID_HANDLE Nothing)
  | Some b => let (b', r) := f b in (firstn k s ++ b' :: skipn (S k) s, r)
  end.
(* casual_field_get_value and casual_field_explore_value find the buffer after the checks of the arguments, when the field is looked for *)
Definition on_get (k : nat) (s : list buffer) (f : buffer -> result) : list buffer * result :=
  match nth_error s k with
  | None => (s, match f (mk_f [] []) with Code c o => Code (if c =? OUT_OF_BOUNDS then INVALID_HANDLE else c) o | r => r end)
  | Some b => (s, f b)
  end.
(* the type of the argument is checked before the handle, field.cpp:273, 338, 498, 400 *)
Definition checked (bad : bool) (x : list buffer * result) (s : list buffer) : list buffer * result := if bad then (s, Code INVALID_ARGUMENT Nothing) else x.
Definition step (h : host) (o : op) (s : list buffer) : list buffer * result :=
  match o with
  | Allocate => (s ++ [mk_f [] []], Code SUCCESS Nothing)
  | Add k id v => checked (negb (number (kind_of v) =? type_of id)) (on k s (add h id v)) s
  | Add_empty k id => checked (match kind_of_number (type_of id) with None => true | _ => false end) (on k s (add_empty h id)) s
  | Get k id i t => checked (negb (number t =? type_of id)) (on k s (fun b => (b, get h id i t b))) s
  | Get_value k id i n => on_get k s (get_value h id i n)
  | Explore_value k id i => on_get k s (explore_value h id i)
  | Set_ k id i v => checked (negb (number (kind_of v) =? type_of id)) (on k s (set h id i v)) s
  | Put_value k id i v => checked (negb (number (kind_of v) =? type_of id)) (on k s (put_value h id i v)) s
  | Remove k id i => checked (id <=? 0) (on k s (remove h id i)) s
  | Remove_id k id => on k s (remove_id h id)
  | Remove_all k => on k s (fun _ => (mk_f [] [], Code SUCCESS Nothing))
  | Count k id => checked (id =? 0) (on k s (fun b => (b, Code SUCCESS (Number (count id b))))) s
  | Count_all k => on k s (fun b => (b, Code SUCCESS (Number (count_all b))))
  | Next k id i => on k s (fun b => (b, next id i b))
  | Copy k from => match nth_error s from with None => (s, Code INVALID_HANDLE Nothing) | Some x => on k s (fun _ => (x, Code SUCCESS Nothing)) end
  | Copy_memory k from => match nth_error s from with None => (s, Code INVALID_HANDLE Nothing) | Some x => on k s (memory_copy h (f_data x)) end
  | Move k => on k s (fun b => memory_copy h (f_data b) b)
  end.
(* every operation on a host of its own: a buffer may move between them *)
Fixpoint run (l : list (host * op)) (s : list buffer) : list buffer * list result :=
  match l with
  | [] => (s, [])
  | (h, o) :: r => let (s1, x) := step h o s in let (s2, xs) := run r s1 in (s2, x :: xs)
  end.
