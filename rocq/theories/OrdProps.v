(* The order buffer: C32. *)
From Coq Require Import ZArith List Bool Lia.
From Verif Require Import Bytes BoModel BoSpec OrdModel OrdSpec OrdProofs.
Import ListNotations.
Local Open Scope Z_scope.

(* any mix of adding, reading and starting over, on any host: every value is read as it was added, in the order added *)
Theorem C32_round_trip h l xs q slack : history l xs (mk_seq [] 0) q -> snd (run h l (allocated slack)) = xs.
Proof. exact (round_trip_seq h l xs q slack). Qed.
(* whatever the bytes in the buffer (it may come from another domain): a read that reports out-of-bounds leaves the buffer and the cursor
   alone, and one that succeeds doesn't leave the cursor behind the end *)
Theorem C32_cursor h k b : let r := get h k b in
  snd r = Undefined \/
  (exists v, snd r = Code OUT_OF_BOUNDS (Some v) /\ fst r = b) \/
  (exists v, snd r = Code SUCCESS (Some v) /\ b_data (fst r) = b_data b /\ b_slack (fst r) = b_slack b /\ b_cursor (fst r) <= utilized b).
Proof. exact (get_cases h k b). Qed.
(* at the end no scalar and no string is read. Missing: that out-of-bounds is reported, see the refutation *)
Theorem C32_past_end_partial h k b : k <> K_binary -> utilized b <= b_cursor b ->
  snd (get h k b) = Undefined \/ exists v, snd (get h k b) = Code OUT_OF_BOUNDS (Some v) /\ fst (get h k b) = b.
Proof. exact (past_end h k b). Qed.
(* out-of-bounds is reported when what is read past the end is still in the allocated memory *)
Theorem C32_past_end_scalar_partial h t b : 0 <= b_cursor b -> utilized b < b_cursor b + Z.of_nat (width t) <= reserved b -> reserved b < 2 ^ 63 ->
  exists v, get h (K_scalar t) b = (b, Code OUT_OF_BOUNDS (Some v)).
Proof. exact (past_end_scalar h t b). Qed.

(* the value is read before the bounds are checked: at the end of the allocation memory outside of it is read *)
Theorem C32_past_end_refuted : exists h l k, exists xs q, history l xs (mk_seq [] 0) q /\ next q = length (added q) /\
  snd (get h k (fst (run h l (allocated [])))) = Undefined.
Proof.
  exists Little, [Add (V_scalar T_long 7) []; Get (K_scalar T_long)], (K_scalar T_long). do 2 eexists. split; [|split].
  - econstructor; [apply do_add; vm_compute; intuition congruence|]. econstructor; [apply (do_get _ (V_scalar T_long 7)); reflexivity|]. constructor.
  - reflexivity.
  - vm_compute. reflexivity.
Qed.
(* a block of bytes is "read" at the end of the buffer, with a negative size: what is taken as its size was left by a value added before *)
Theorem C32_past_end_binary_refuted : exists h l b v, exists xs, history l xs (mk_seq [] 0) (mk_seq [] 0) /\ snd (run h l (allocated [])) = xs /\ b = fst (run h l (allocated [])) /\
  utilized b = 0 /\ snd (get h K_binary b) = Code SUCCESS (Some v) /\ v = V_binary (-8) [].
Proof.
  exists Little, [Add (V_scalar T_long (-8)) []; Add_prepare]. do 3 eexists. split; [|split; [|split; [reflexivity|]]].
  - econstructor; [apply do_add; vm_compute; intuition congruence|]. econstructor; [apply do_add_prepare; reflexivity|]. constructor.
  - vm_compute. reflexivity.
  - vm_compute. auto.
Qed.

Definition ex_values := [V_scalar T_bool 1; V_string [104; 105]; V_binary 3 [0; 0; 255]; V_scalar T_short (-2); V_string []; V_scalar T_double (2 ^ 62 + 5)].
Example ex_round_trip : snd (run Little (map (fun v => Add v []) ex_values ++ map (fun v => Get (kind_of v)) ex_values) (allocated [1; 2; 3])) =
  map (fun _ => Code SUCCESS None) ex_values ++ map (fun v => Code SUCCESS (Some v)) ex_values.
Proof. vm_compute. reflexivity. Qed.
Example ex_history : history [Add (V_string [104; 105]) []; Get K_string; Add (V_binary 2 [0; 9]) []; Get_prepare; Get K_string; Get K_binary]
  [Code 0 None; Code 0 (Some (V_string [104; 105])); Code 0 None; Code 0 None; Code 0 (Some (V_string [104; 105])); Code 0 (Some (V_binary 2 [0; 9]))]
  (mk_seq [] 0) (mk_seq [V_string [104; 105]; V_binary 2 [0; 9]] 2).
Proof.
  econstructor; [apply do_add; [repeat constructor; vm_compute; congruence|vm_compute; reflexivity]|].
  econstructor; [apply (do_get (mk_seq [V_string [104; 105]] 0) (V_string [104; 105])); reflexivity|].
  econstructor; [apply do_add; [split; [reflexivity|repeat constructor; vm_compute; congruence]|vm_compute; reflexivity]|].
  econstructor; [apply do_get_prepare|].
  econstructor; [apply (do_get (mk_seq [V_string [104; 105]; V_binary 2 [0; 9]] 0) (V_string [104; 105])); reflexivity|].
  econstructor; [apply (do_get (mk_seq [V_string [104; 105]; V_binary 2 [0; 9]] 1) (V_binary 2 [0; 9])); reflexivity|]. constructor.
Qed.
Example ex_past_end : get Little (K_scalar T_short) (mk_b [1; 2; 3] [9; 9] 2) = (mk_b [1; 2; 3] [9; 9] 2, Code OUT_OF_BOUNDS (Some (V_scalar T_short 777))).
Proof. vm_compute. reflexivity. Qed.
Print Assumptions C32_round_trip.
Print Assumptions C32_cursor.
Print Assumptions C32_past_end_partial.
Print Assumptions C32_past_end_scalar_partial.
Print Assumptions C32_past_end_refuted.
Print Assumptions C32_past_end_binary_refuted.
