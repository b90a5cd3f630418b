(* The send coordinator: C50, C51. *)
From Coq Require Import ZArith List Bool Arith Lia.
From Verif Require Import IpcModel IpcSpec SendModel SendSpec SendProofs SendTop.
Import ListNotations.

(* ================================================================ C50 *)
(* for every destination: the messages given to the coordinator, in order, each with its fate. The datagrams the destination got are, in the
   same order and each once, all of those of a message that is done and the first n of one that is lost or waiting; the callbacks
   called are those of exactly the lost messages; what is queued are exactly the waiting ones, and they are last *)
Theorem C50_accounted max l c es d : 0 < max -> payloads l -> crun max l idle = (c, es) ->
  exists fs, sane max fs /\ map fst fs = given d l /\ sent_to d es = flat_map (fun x => grams max (fst (fst x)) (snd x)) fs /\
    lost_to d es = pick is_lost fs /\ queue_to d c = pick is_waiting fs.
Proof. exact (fun Hm => accounted max Hm l c es d). Qed.
(* select waits for exactly the sockets of destinations with something queued *)
Theorem C50_watched max l c es : 0 < max -> payloads l -> fresh_fds max l idle -> crun max l idle = (c, es) ->
  forall fd, In fd (co_write c) <-> exists r, In r (co_dest c) /\ r_fd r = fd /\ r_queue r <> [].
Proof. exact (fun Hm => watched max Hm l c es). Qed.
(* a message with an empty payload is dropped without a trace: nothing is sent, nothing pending, no callback *)
Theorem C50_empty_refuted : ~ forall max l c es d, 0 < max -> crun max l idle = (c, es) ->
  exists fs, sane max fs /\ map fst fs = given d l /\ sent_to d es = flat_map (fun x => grams max (fst (fst x)) (snd x)) fs /\
    lost_to d es = pick is_lost fs /\ queue_to d c = pick is_waiting fs.
Proof.
  intros H. specialize (H 2 [C_send 5 (mk_msg 1 7 []) true (Some 3%Z) [Taken]] idle [E_return 5 (mk_msg 1 7 []) false] 5%Z (le_S _ _ (le_n 1)) eq_refl).
  destruct H as (fs & _ & H1 & H2 & H3 & H4). cbn in H1, H2, H3, H4. destruct fs as [|[x f] [|y fs]]; try discriminate. cbn in H1. injection H1 as ->.
  destruct f as [|n|n]; [discriminate| |]; cbn in *; discriminate.
Qed.

(* ================================================================ C51 *)
(* from process to process: any number of processes send through their coordinators, each type and correlation is used by one of them, and
   the receiver's socket gets the datagrams of each in order. Then, for each type and correlation, what was given to the sender's
   coordinator is what the receiver has handed out, then what it holds, then what it has not read (rest), then what the sender has queued *)
Theorem C51_end_to_end max (senders : nat -> list cop) (own : key -> nat) d l s r k : 0 < max ->
  (forall i, payloads (senders i) /\ lost_to d (snd (crun max (senders i) idle)) = []) ->
  (forall k, filter (t_is k) (arrivals l) = filter (t_is k) (sent_to d (snd (crun max (senders (own k)) idle)))) ->
  ~ In Clear l -> by_key l -> of_key k (pushed l) = [] -> run l empty = (s, r) -> of_key k (dropped r) = [] ->
  exists rest, of_key k (map fst (given d (senders (own k)))) =
    of_key k (delivered r) ++ of_key k (ready s) ++ rest ++ of_key k (map fst (queue_to d (fst (crun max (senders (own k)) idle)))) /\ (i_wire s = [] -> rest = []).
Proof. exact (fun Hm => end_to_end max Hm senders own d l s r k). Qed.

(* ---------------------------------------------------------------- witnesses *)
Definition w_m (t c : Z) (n : nat) : msg := mk_msg t c (map N.of_nat (seq 0 n)).
(* one datagram of the first message is taken; then the second is given; then two more are taken; a third message; then the receiver is gone *)
Definition w_l : list cop := [C_send 5 (w_m 1 7 3) true (Some 3%Z) [Taken; Full]; C_send 5 (w_m 1 7 5) false (Some 4%Z) [Full]; C_send 6 (w_m 1 9 1) true (Some 4%Z) [Full];
  C_ready 3 [Taken; Taken; Full]; C_send 5 (w_m 2 8 1) true (Some 8%Z) []].
Example ex_accounted : payloads w_l /\ fresh_fds 2 w_l idle /\
  sent_to 5 (snd (crun 2 w_l idle)) = datagrams 2 (w_m 1 7 3) ++ firstn 1 (datagrams 2 (w_m 1 7 5)) /\ lost_to 5 (snd (crun 2 w_l idle)) = [] /\
  queue_to 5 (fst (crun 2 w_l idle)) = [(w_m 1 7 5, false); (w_m 2 8 1, true)] /\ queue_to 6 (fst (crun 2 w_l idle)) = [(w_m 1 9 1, true)] /\
  lost_to 5 (snd (crun 2 (w_l ++ [C_all [Gone]]) idle)) = [(w_m 1 7 5, false); (w_m 2 8 1, true)].
Proof.
  split; [|split; [|vm_compute; repeat split]].
  - intros ipc m call open w H. cbn in H. repeat (destruct H as [H|H]; [injection H as <- <- <- <- <- || discriminate H; discriminate|]). destruct H.
  - cbn. intuition discriminate.
Qed.
(* that sender, and a receiver that has read everything there is *)
Definition w_r : list op := map Arrive (sent_to 5 (snd (crun 2 w_l idle))) ++ [Next Any; Next Any].
Example ex_end : forall k, k = (1, 7)%Z -> of_key k (map fst (given 5 w_l)) = of_key k (delivered (snd (run w_r empty))) ++ of_key k (map fst (queue_to 5 (fst (crun 2 w_l idle)))) /\
  delivered (snd (run w_r empty)) = [w_m 1 7 3] /\ dropped (snd (run w_r empty)) = [] /\ i_wire (fst (run w_r empty)) = [] /\ by_key w_r /\ ~ In Clear w_r.
Proof. intros k ->. repeat (split; [vm_compute; reflexivity|]). split; [intros p; split; cbn; intuition discriminate|cbn; intuition discriminate]. Qed.

Print Assumptions C50_accounted.
Print Assumptions C50_watched.
Print Assumptions C50_empty_refuted.
Print Assumptions C51_end_to_end.
