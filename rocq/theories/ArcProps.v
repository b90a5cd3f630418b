(* The binary archives: C35. *)
From Coq Require Import ZArith List Bool Lia Sorted.
From Verif Require Import Bytes BoModel BoSpec ArcModel ArcSpec ArcProofs ArcRead.
Import ListNotations.
Local Open Scope Z_scope.

(* every value of every type, whatever follows it, is read as it was written: with the native archives on a host, with the network archives on
   two hosts that may differ in byte order *)
Theorem C35_round_trip p p' t v rest : compatible p p' -> typed t v -> read p' t (default t) (write p t v ++ rest) = Read v rest.
Proof. intros C T. exact (read_write p p' t C v (default t) rest T (fresh_default t)). Qed.
(* to an object that has a value already as well, if the type has no optionals and no containers with insert *)
Theorem C35_overwrite p p' t v old rest : compatible p p' -> typed t v -> overwritten t = true -> read p' t old (write p t v ++ rest) = Read v rest.
Proof. intros C T O. exact (read_write p p' t C v old rest T (fresh_overwritten t O old)). Qed.
(* what the network archive writes doesn't depend on the platform *)
Theorem C35_platform_independent h h' t v : typed t v -> write (Network h) t v = write (Network h') t v.
Proof. exact (write_network h h' t v). Qed.
(* different values are written differently, and no one's bytes begin with another's *)
Theorem C35_unambiguous p t v v' rest rest' : typed t v -> typed t v' -> write p t v ++ rest = write p t v' ++ rest' -> v = v' /\ rest = rest'.
Proof. exact (write_prefix_free p t v v' rest rest'). Qed.

(* whatever the bytes are, what is read of them is a value of the type: numbers in their range, containers in order and without equals where
   there must be none *)
Theorem C35_read_is_a_value p t d v rest : regular t -> Forall is_byte d -> read p t (default t) d = Read v rest -> typed t v /\ Forall is_byte rest.
Proof. exact (fun R => read_typed p t R d v rest). Qed.

(* an object with optionals or containers with insert keeps old content when it's read to again *)
Theorem C35_overwrite_refuted : exists p t v old v', typed t v /\ typed t old /\ read p t old (write p t v) = Read v' [] /\ v' <> v.
Proof.
  exists (Network Little), (T_optional (T_num T_long)), V_none, (V_some (V_num 7)). eexists. split; [exact I|]. split; [cbn; lia|]. split; [vm_compute; reflexivity|discriminate].
Qed.
(* bytes that were not written for the type are not handled: an XID with too large lengths is written outside of the object, and a short
   buffer is read outside of it *)
Theorem C35_malformed_refuted : exists p d d', Forall is_byte d /\ Forall is_byte d' /\ read p T_xid (default T_xid) d = Undefined /\ read p (T_num T_long) (V_num 0) d' = Undefined.
Proof.
  exists (Network Little), (be 8 42 ++ be 8 100 ++ be 8 100 ++ repeat 0 200), [1; 2; 3].
  split; [|split; [repeat constructor; unfold is_byte; lia|split; vm_compute; reflexivity]].
  apply Forall_app; split; [apply be_bytes|]. apply Forall_app; split; [apply be_bytes|]. apply Forall_app; split; [apply be_bytes|]. apply Forall_forall. intros x H. apply repeat_spec in H. subst. unfold is_byte. lia.
Qed.

(* a message with an XID, an optional deadline, a list of names and a map *)
Definition ex_lt (a b : val) : bool := match a, b with V_pair (V_num x) _, V_pair (V_num y) _ => x <? y | _, _ => false end.
Definition ex_ty : ty :=
  members [T_fixed 4; T_xid; T_optional (T_duration 1000); T_sequence T_bytes; T_insert false ex_lt (T_pair (T_num T_int) T_bytes); T_tuple 2 (members [T_num T_bool; T_num T_short]); T_num T_double].
Definition ex_val : val :=
  values [V_bytes [1; 2; 3; 4]; V_xid 42 2 1 [7; 8; 9]; V_some (V_num (-5)); V_list [V_bytes [104; 105]; V_bytes []];
          V_list [V_pair (V_num (-1)) (V_bytes [1]); V_pair (V_num 4) (V_bytes [])]; values [V_num 1; V_num (-2)]; V_num (2 ^ 62)].
Example ex_typed : typed ex_ty ex_val.
Proof.
  cbn; unfold sizes, is_byte.
  repeat match goal with |- _ /\ _ => split | |- Forall _ _ => constructor | |- StronglySorted _ _ => constructor end; cbn; auto; lia.
Qed.
Example ex_round_trip : read (Network Big) ex_ty (default ex_ty) (write (Network Little) ex_ty ex_val ++ [255]) = Read ex_val [255] /\
  read (Native Little) ex_ty (default ex_ty) (write (Native Little) ex_ty ex_val) = Read ex_val [] /\
  write (Native Little) ex_ty ex_val <> write (Network Little) ex_ty ex_val.
Proof. vm_compute. repeat split. discriminate. Qed.

(* a map that was written in another order is read in its own *)
Definition ex_map : ty := T_insert false ex_lt (T_pair (T_num T_int) T_bytes).
Example ex_map_regular : regular ex_map /\ read (Network Big) ex_map (default ex_map) (be 8 3 ++ be 4 9 ++ be 8 0 ++ be 4 2 ++ be 8 1 ++ [5] ++ be 4 9 ++ be 8 1 ++ [6]) =
  Read (V_list [V_pair (V_num 2) (V_bytes [5]); V_pair (V_num 9) (V_bytes [])]) [].
Proof.
  split; [|vm_compute; reflexivity]. split; [cbn; auto|].
  assert (K : forall v, typed (T_pair (T_num T_int) T_bytes) v -> exists a b, v = V_pair (V_num a) b).
  { intros v. destruct v as [| | | | | |a b|]; try (cbn; tauto). intros [H _]. destruct a; try (cbn in H; tauto). eauto. }
  split; [|split].
  - intros x y X Y. destruct (K x X) as [a [b E]], (K y Y) as [c [d F]]. subst. cbn [ex_lt]. rewrite Z.ltb_lt, Z.ltb_ge. lia.
  - intros x y z X Y Z. destruct (K x X) as [a [b E]], (K y Y) as [c [d F]], (K z Z) as [e [f G]]. subst. cbn [ex_lt]. rewrite !Z.ltb_lt. lia.
  - intros x y z X Y Z. destruct (K x X) as [a [b E]], (K y Y) as [c [d F]], (K z Z) as [e [f G]]. subst. cbn [ex_lt]. rewrite !Z.ltb_ge. lia.
Qed.

Print Assumptions C35_round_trip.
Print Assumptions C35_overwrite.
Print Assumptions C35_platform_independent.
Print Assumptions C35_unambiguous.
Print Assumptions C35_read_is_a_value.
Print Assumptions C35_overwrite_refuted.
Print Assumptions C35_malformed_refuted.
