(* The field buffer: C33. *)
From Coq Require Import ZArith List Bool Lia.
From Verif Require Import Bytes BoModel BoSpec FieldModel FieldSpec FieldProofs.
Import ListNotations.
Local Open Scope Z_scope.

(* every sequence of operations on any number of buffers, each on a host of either byte order, gives what it gives for lists of fields: no
   operation reads or writes outside of the buffer, and none hangs *)
Theorem C33_history l : Forall (fun x => good_op (snd x)) l -> snd (run l []) = snd (s_run l []).
Proof. intros G. exact (proj1 (run_rep l [] [] (Forall2_nil _) G)). Qed.
(* a value that is added becomes the last occurrence of its id, and is what is read there; everything else, in every buffer, is read as before *)
Theorem C33_add h h' k id v s k' id' i' t n : reachable s -> good v -> number t = type_of id' ->
  snd (step h (Count k id) s) = Code SUCCESS (Number n) -> snd (step h (Add k id v) s) = Code SUCCESS Nothing ->
  snd (step h' (Get k' id' i' t) (fst (step h (Add k id v) s))) =
    if Nat.eqb k' k && (id' =? id) && (i' =? n) then Code SUCCESS (Value v) else snd (step h' (Get k' id' i' t) s).
Proof. exact (add_get h h' k id v s k' id' i' t n). Qed.
(* a value that is changed is read at that occurrence; everything else is read as before *)
Theorem C33_set h h' k id i v s k' id' i' t : reachable s -> good v -> number t = type_of id' ->
  snd (step h (Set_ k id i v) s) = Code SUCCESS Nothing ->
  snd (step h' (Get k' id' i' t) (fst (step h (Set_ k id i v) s))) =
    if Nat.eqb k' k && (id' =? id) && (i' =? i) then Code SUCCESS (Value v) else snd (step h' (Get k' id' i' t) s).
Proof. exact (set_get h h' k id i v s k' id' i' t). Qed.
(* when an occurrence is removed the later ones of the same id move one step; everything else is read as before *)
Theorem C33_remove h h' k id i s k' id' i' t : reachable s -> number t = type_of id' ->
  snd (step h (Remove k id i) s) = Code SUCCESS Nothing ->
  snd (step h' (Get k' id' i' t) (fst (step h (Remove k id i) s))) =
    snd (step h' (Get k' id' (if Nat.eqb k' k && (id' =? id) && (i <=? i') then i' + 1 else i') t) s).
Proof. exact (remove_get h h' k id i s k' id' i' t). Qed.
(* going through a buffer with next, from no id, ends and gives every occurrence of every id exactly once *)
Theorem C33_iteration l k b i : Forall (fun x => good_op (snd x)) l -> nth_error (fst (run l [])) k = Some b ->
  exists fields r, nth_error (fst (s_run l [])) k = Some fields /\ walk (S (length fields)) b 0 i = Some r /\ NoDup r /\
    forall id n, In (id, n) r <-> 0 <= n < occurrences id fields.
Proof.
  intros G N. pose proof (reps_nth _ _ k (proj2 (run_rep l [] [] (Forall2_nil _) G))) as R. rewrite N in R. destruct (nth_error (fst (s_run l [])) k) as [fields|]; [|contradiction].
  destruct (walk_rep b fields i R) as (r & W & D & _ & I). exists fields, r. auto.
Qed.

(* none of this holds for what another process may send: a payload that ends within a field is read outside, one with a negative size is gone
   through forever, and a field that is shorter than its type is read outside when it's asked for *)
Theorem C33_received_refuted : exists h d d' d'' b id t,
  Forall is_byte (d ++ d' ++ d'') /\ construct h d = B_undefined /\ construct h d' = B_hangs /\ construct h d'' = Built b /\ get h id 0 t b = Undefined.
Proof.
  exists Little, [0; 0; 0], (be 8 33554433 ++ be 8 (256 ^ 8 - 16)), (be 8 (2 * 33554432 + 1) ++ be 8 4 ++ [1; 2; 3; 4]). do 2 eexists. exists Long.
  split; [repeat constructor; vm_compute; congruence|]. split; [vm_compute; reflexivity|]. split; [vm_compute; reflexivity|]. split; [vm_compute; reflexivity|].
  instantiate (1 := 2 * 33554432 + 1). vm_compute. reflexivity.
Qed.
(* two ids of numbers and one of strings, used on hosts of both byte orders *)
Definition LONG := 2 * TYPE_BASE + 7.
Definition SHORT := TYPE_BASE + 3.
Definition STRING := 6 * TYPE_BASE + 1.
Definition ex_ops : list (host * op) :=
  [(Little, Allocate); (Little, Add 0 STRING (V_string [104; 105])); (Little, Add 0 LONG (V_number Long (-5))); (Little, Add 0 STRING (V_string []));
   (Big, Move 0); (Big, Set_ 0 STRING 0 (V_string [104; 101; 108; 108; 111])); (Big, Put_value 0 SHORT 1 (V_number Short (-2))); (Big, Get 0 LONG 0 Long);
   (Little, Move 0); (Little, Remove 0 STRING 1); (Little, Get 0 STRING 0 String); (Little, Get 0 SHORT 0 Short); (Little, Get 0 SHORT 1 Short);
   (Little, Get 0 STRING 1 String); (Little, Count_all 0)].
Example ex_good : Forall (fun x => good_op (snd x)) ex_ops.
Proof. repeat constructor; try (eexists; split; [reflexivity|]); cbn; try lia; try (unfold is_byte; lia). Qed.
Example ex_results : skipn 7 (snd (run ex_ops [])) =
  [Code SUCCESS (Value (V_number Long (-5))); Code SUCCESS Nothing; Code SUCCESS Nothing; Code SUCCESS (Value (V_string [104; 101; 108; 108; 111]));
   Code SUCCESS (Value (V_number Short 0)); Code SUCCESS (Value (V_number Short (-2))); Code OUT_OF_BOUNDS Nothing; Code SUCCESS (Number 4)].
Proof. vm_compute. reflexivity. Qed.
Example ex_walk : walk 5 (nth 0 (fst (run ex_ops [])) (mk_f [] [])) 0 9 = Some [(SHORT, 0); (SHORT, 1); (LONG, 0); (STRING, 0)].
Proof. vm_compute. reflexivity. Qed.

Print Assumptions C33_history.
Print Assumptions C33_add.
Print Assumptions C33_set.
Print Assumptions C33_remove.
Print Assumptions C33_iteration.
Print Assumptions C33_received_refuted.
