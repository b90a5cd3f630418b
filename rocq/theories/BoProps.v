(* Network byte order: C31. *)
From Coq Require Import ZArith List Bool Lia.
From Verif Require Import BoModel BoSpec BoProofs.
Import ListNotations.
Local Open Scope Z_scope.

(* on any host, every value of every supported type comes back *)
Theorem C31_round_trip h t v : value_of t v -> decode h t (encode h t v) = v.
Proof. exact (round_trip h t v). Qed.
(* the bytes of the encoded word in memory are the big-endian representation of the value *)
Theorem C31_big_endian h t v : value_of t v -> big_endian (width t) v (memory h (width t) (encode h t v)).
Proof. exact (encode_big_endian h t v). Qed.
(* the bytes can be decoded on a host with another byte order *)
Theorem C31_across_hosts h h' t v : value_of t v -> decode h' t (word h' (memory h (width t) (encode h t v))) = v.
Proof. exact (across_hosts h h' t v). Qed.

Example ex_negative : value_of T_short (-2) /\ memory Little 2 (encode Little T_short (-2)) = [255; 254] /\ encode Little T_short (-2) = 65279.
Proof. repeat split; vm_compute; congruence. Qed.
Example ex_long : value_of T_long 258 /\ memory Little 8 (encode Little T_long 258) = [0; 0; 0; 0; 0; 0; 1; 2] /\ memory Big 8 (encode Big T_long 258) = [0; 0; 0; 0; 0; 0; 1; 2].
Proof. repeat split; vm_compute; congruence. Qed.
Example ex_usize : value_of T_usize (2 ^ 64 - 1) /\ decode Little T_usize (encode Little T_usize (2 ^ 64 - 1)) = 2 ^ 64 - 1.
Proof. repeat split; vm_compute; congruence. Qed.
Print Assumptions C31_round_trip.
Print Assumptions C31_big_endian.
Print Assumptions C31_across_hosts.
