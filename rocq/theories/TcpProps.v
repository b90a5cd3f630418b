(* The tcp connection between domains: C52. *)
From Coq Require Import ZArith List Bool Arith Lia Permutation.
From Verif Require Import Bytes BoModel TcpModel TcpSpec TcpProofs.
Import ListNotations.
Local Open Scope Z_scope.

(* hosts of any byte order, any messages, however the socket splits what is written and what is read, whatever is asked for and when *)
Theorem C52_no_failure hs hr l : Forall good (posts l) -> no_push l -> ~ In Raised (snd (run hs hr l connected)).
Proof. intros G N. exact (never_raises hs hr l G N). Qed.
(* what is got, and what can be got, is what was posted up to some message: each of them once, unchanged *)
Theorem C52_once hs hr l : Forall good (posts l) -> no_push l ->
  exists arrived coming, posts l = arrived ++ coming /\ Permutation arrived (gots (snd (run hs hr l connected)) ++ here hr (fst (run hs hr l connected))).
Proof. intros G N. destruct (arrived_prefix hs hr l G N) as (rest & done & E & P & _). exists done, rest. auto. Qed.
(* messages of a type and a correlation are got in the order they were posted *)
Theorem C52_in_order hs hr l : Forall good (posts l) -> no_push l -> takes_by_kind l ->
  exists arrived coming, posts l = arrived ++ coming /\
    forall t c, filter (of_kind t c) (gots (snd (run hs hr l connected))) ++ filter (of_kind t c) (here hr (fst (run hs hr l connected))) = filter (of_kind t c) arrived.
Proof. intros G N K. destruct (arrived_prefix hs hr l G N) as (rest & done & E & _ & O & _). exists done, rest. auto. Qed.
(* and when nothing is left to send and nothing is on its way everything has arrived *)
Theorem C52_all_arrive hs hr l : Forall good (posts l) -> no_push l -> n_out (fst (run hs hr l connected)) = [] -> n_wire (fst (run hs hr l connected)) = [] ->
  Permutation (posts l) (gots (snd (run hs hr l connected)) ++ here hr (fst (run hs hr l connected))).
Proof. intros G N O W. destruct (arrived_prefix hs hr l G N) as (rest & done & E & P & _ & A). rewrite (A O W), app_nil_r in E. rewrite E. exact P. Qed.
(* which is where it ends: as long as the socket takes anything there is less left to send, and whatever is on its way gets less with every read *)
Theorem C52_progress hs hr l k k1 k2 : Forall good (posts l) -> no_push l -> let n := fst (run hs hr l connected) in
  (n_out n <> [] -> (bytes_out (fst (step hs hr (Write (S k)) n)) < bytes_out n)%nat) /\
  (n_wire n <> [] -> (length (n_wire (fst (step hs hr (Read k1 k2) n))) < length (n_wire n))%nat).
Proof. intros G N n. split; [exact (write_progress hs hr l G N k)|exact (read_progress hs hr l G N k1 k2)]. Qed.

(* a message without payload can't be received: the read that gets its header raises *)
Theorem C52_empty_payload_refuted : exists l m, posts l = [m] /\ no_push l /\ tm_type m <> 0 /\ length (tm_corr m) = 16%nat /\ tm_payload m = [] /\
  In Raised (snd (run Little Little l connected)).
Proof.
  exists [Post (mk_tm 7 (repeat 1 16) []); Write 100; Read 100 100], (mk_tm 7 (repeat 1 16) []). split; [reflexivity|]. split; [intros m [E|[E|[E|[]]]]; discriminate|].
  split; [discriminate|]. split; [reflexivity|]. split; [reflexivity|]. vm_compute. auto.
Qed.
(* a message that is pushed to the connection's own end can't be got, and is gone when the next message arrives *)
Theorem C52_push_refuted : exists l m m', good m /\ good m' /\ posts l = [m] /\ In (Push m') l /\
  let (n, o) := run Little Little l connected in n_out n = [] /\ n_wire n = [] /\ n_cache n = [] /\ gots o = [m] /\ m <> m'.
Proof.
  exists [Push (mk_tm 8 (repeat 2 16) [5; 6]); Take (fun _ => true); Post (mk_tm 7 (repeat 1 16) [3; 4]); Write 100; Read 40 100; Take (fun _ => true)],
    (mk_tm 7 (repeat 1 16) [3; 4]), (mk_tm 8 (repeat 2 16) [5; 6]).
  split; [|split]; [repeat split; try (cbn; lia); try (vm_compute; congruence); repeat constructor; vm_compute; congruence..|].
  split; [reflexivity|]. split; [left; reflexivity|]. vm_compute. repeat split; auto. discriminate.
Qed.

Definition ex_a := mk_tm 7 (repeat 1 16) [3; 4; 5].
Definition ex_b := mk_tm (-9) (repeat 2 16) [255].
Definition ex_l : list event :=
  [Post ex_a; Post ex_b; Write 5; Write 0; Read 2 9; Post ex_a; Write 40; Read 31 0; Read 30 0; Write 3; Read 0 0; Write 1000; Take (fun m => tm_type m =? -9);
   Read 100 100; Read 0 0; Read 100 100; Take (fun m => tm_type m =? -9); Write 1000; Read 10 10; Read 40 0; Read 40 0; Read 40 0; Take (fun _ => true)].
Example ex_split : Forall good (posts ex_l) /\ no_push ex_l /\ takes_by_kind ex_l /\
  run Little Big ex_l connected = (mk_con [] [] [mk_c (c_head (outgoing Big ex_a)) [3; 4; 5] 35], [Got ex_b; Got ex_a]).
Proof.
  split; [|split; [|split]].
  - repeat constructor; try (vm_compute; congruence); cbn; lia.
  - intros m H. cbn in H. repeat (destruct H as [H|H]; [discriminate|]). destruct H.
  - intros p H. cbn in H. repeat (destruct H as [H|H]; [try discriminate; inversion H; intros m m' Et Ec; cbn; congruence|]). destruct H.
  - vm_compute. reflexivity.
Qed.
Print Assumptions C52_no_failure.
Print Assumptions C52_once.
Print Assumptions C52_in_order.
Print Assumptions C52_all_arrive.
Print Assumptions C52_progress.
Print Assumptions C52_empty_payload_refuted.
Print Assumptions C52_push_refuted.
