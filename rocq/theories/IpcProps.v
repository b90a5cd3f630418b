(* The ipc transport: C29, C30, C49. *)
From Coq Require Import ZArith List Bool Arith Lia Permutation.
From Verif Require Import IpcModel IpcSpec IpcChunk IpcProj IpcAcct IpcTop IpcMicro IpcOrder.
Import ListNotations.

(* ================================================================ C29 *)
(* what is sent: datagrams no larger than max, back to back, that together are the payload; an empty message is one datagram *)
Theorem C29_datagrams max m : 0 < max -> datagrams max m <> [] /\ flat_map t_data (datagrams max m) = m_payload m /\
  (forall t, In t (datagrams max m) -> t_key t = m_key m /\ t_size t = length (m_payload m) /\ length (t_data t) <= max) /\
  back_to_back (m_key m) 0 (datagrams max m).
Proof. exact (datagrams_data max m). Qed.
(* the datagrams arrive, with any that already arrived resent any number of times: the receiver gets exactly the message *)
Theorem C29_round_trip max m ts sl : 0 < max -> transmits max m 0 ts -> selects sl m = true ->
  snd (run (map Arrive ts ++ [Next sl]) empty) = [Got m].
Proof. exact (round_trip max m ts sl). Qed.
(* the sender gives up any number of times (the socket is full) and starts over each time *)
Theorem C29_resend max m tries last sl : 0 < max -> (forall a, In a tries -> snd (send max a m) = false) -> snd (send max last m) = true -> selects sl m = true ->
  snd (run (map Arrive (flat_map (fun a => fst (send max a m)) tries ++ fst (send max last m)) ++ [Next sl]) empty) = [Got m].
Proof. intros Hm Ht Hl Hs. apply (round_trip max m); auto. exact (attempts_transmit max m tries last Hm Ht Hl). Qed.
(* whatever arrives, even datagrams no sender would send: a message that is delivered was pushed, or is the concatenation of datagrams of its
   type and correlation that did arrive, in that order, the first of which stated its size *)
Theorem C29_authentic l s r m : run l empty = (s, r) -> In (Got m) r -> In m (pushed l) \/ made_of (arrivals l) m.
Proof. exact (authentic l s r m). Qed.
(* gaps and overruns are rejected: an error, and the device is as it was *)
Theorem C29_misfit_rejected i t sl : i_wire i = [] -> (forall m, In m (ready i) -> selects sl m = false) -> misfit t i ->
  run [Arrive t; Next sl] i = (i, [Raised]).
Proof. exact (fun Hw Hr H => reject_lemma sl i t Hw Hr H). Qed.
(* and the message that was being received is still received *)
Theorem C29_misfit_harmless max m ts more sl bad s1 r1 : 0 < max -> transmits max m 0 (ts ++ more) -> more <> [] -> selects sl m = true ->
  run (map Arrive ts ++ [Next sl]) empty = (s1, r1) -> misfit bad s1 ->
  snd (run ((map Arrive ts ++ [Next sl]) ++ [Arrive bad; Next sl] ++ map Arrive more ++ [Next sl]) empty) = [Nothing; Raised; Got m].
Proof. exact (reject_harmless max m ts more sl bad s1 r1). Qed.

(* ================================================================ C30 *)
(* messages of any number of senders, mixed datagram by datagram in any way, and any use of the device but clear *)
Theorem C30_never_raises max sent l s r : proper max sent l -> run l empty = (s, r) -> ~ In Raised r.
Proof. exact (never_raised max sent l s r). Qed.
(* every message is handed over or thrown away (by a discard or flush) exactly once, or is still there; rest: datagrams not yet read *)
Theorem C30_exactly_once max sent l s r k : proper max sent l -> run l empty = (s, r) ->
  exists rest, Permutation (sent k ++ of_key k (pushed l)) (of_key k (consumed r) ++ of_key k (ready s) ++ rest) /\ (i_wire s = [] -> rest = []).
Proof. exact (exactly_once max sent l s r k). Qed.
(* messages of the same type and correlation are handed over in the order they were sent *)
Theorem C30_in_order max sent l s r k : proper max sent l -> by_key l -> of_key k (pushed l) = [] -> run l empty = (s, r) ->
  exists rest, sub (of_key k (delivered r) ++ of_key k (ready s) ++ rest) (sent k) /\ (i_wire s = [] -> rest = []) /\
    (of_key k (dropped r) = [] -> sent k = of_key k (delivered r) ++ of_key k (ready s) ++ rest).
Proof. exact (in_order max sent l s r k). Qed.
(* when the device says there is no message of the kind asked for, every one there was has been handed over or thrown away *)
Theorem C30_nothing_left max sent l sl s r1 r2 s1 k : proper max sent (l ++ [Next sl]) -> run l empty = (s1, r1) -> step (Next sl) s1 = (s, r2 ++ [Nothing]) ->
  Permutation (filter (selects sl) (sent k ++ of_key k (pushed l))) (filter (selects sl) (of_key k (consumed (r1 ++ r2)))).
Proof. exact (nothing_left max sent l sl s r1 r2 s1 k). Qed.
(* what is handed out is what was asked for; 'no such message' is said only when the device holds none *)
Theorem C30_as_requested sl i s r : (step (Next sl) i = (s, r) \/ step (Cached sl) i = (s, r)) -> (forall m, In (Got m) r -> wanted sl m) /\
  (In Nothing r -> forall m, In m (ready s) -> ~ wanted sl m).
Proof. exact (as_requested sl i s r). Qed.
(* a message that had arrived before the first datagram of another is not overtaken by it *)
Theorem C30_no_overtaking max sent l sl s1 r1 s r2 m1 m2 A B : proper max sent (l ++ [Next sl]) -> sent (m_key m1) = [m1] -> m_key m1 <> m_key m2 ->
  arrivals l = A ++ B -> filter (t_is (m_key m2)) A = [] -> filter (t_is (m_key m1)) B = [] ->
  of_key (m_key m1) (pushed l) = [] -> of_key (m_key m2) (pushed l) = [] ->
  run l empty = (s1, r1) -> step (Next sl) s1 = (s, r2 ++ [Got m2]) -> selects sl m1 = true -> In m1 (consumed (r1 ++ r2)).
Proof. exact (no_overtaking max sent l sl s1 r1 s r2 m1 m2 A B). Qed.

(* ================================================================ C49 *)
(* a message whose correlation is discarded before it is delivered never is *)
Theorem C49_discarded_partial max sent l1 l2 m : let l := l1 ++ Discard (m_corr m) :: l2 in proper max sent l -> sent (m_key m) = [m] ->
  (forall t, In t (arrivals l) -> t_corr t = m_corr m -> t_key t = m_key m) -> (forall x, In x (pushed l) -> m_corr x <> m_corr m) ->
  ~ In m (delivered (snd (run l1 empty))) -> ~ In m (delivered (snd (run l empty))).
Proof. exact (discarded_lemma max sent l1 l2 m). Qed.

(* ---------------------------------------------------------------- witnesses *)
Definition w_m (t c : Z) (n : nat) : msg := mk_msg t c (map N.of_nat (seq 0 n)).
Definition w_d (t c : Z) (n : nat) : list transport := Eval vm_compute in datagrams 2 (w_m t c n).
Definition w_a : msg := w_m 1 7 5.
Definition w_b : msg := w_m 2 8 3.
Definition w_as : list transport := Eval vm_compute in datagrams 2 w_a.
Definition w_bs : list transport := Eval vm_compute in datagrams 2 w_b.
Definition n_as i := nth i w_as (mk_t 0 0 0 0 []).
Definition n_bs i := nth i w_bs (mk_t 0 0 0 0 []).

(* three datagrams of 2, 2 and 1 bytes; the second attempt starts over *)
Example ex_resend : (forall a, In a [[true; true]; [true]] -> snd (send 2 a w_a) = false) /\ snd (send 2 [true; true; true] w_a) = true /\
  length (flat_map (fun a => fst (send 2 a w_a)) [[true; true]; [true]] ++ fst (send 2 [true; true; true] w_a)) = 6.
Proof. split; [|split; reflexivity]. intros a [<-|[<-|[]]]; reflexivity. Qed.
Lemma w_transmits : transmits 2 w_a 0 w_as.
Proof. exact (transmits_from 2 w_a 0 (Nat.le_0_l _)). Qed.
Example ex_misfit : exists s1 r1, run (map Arrive [n_as 0] ++ [Next Any]) empty = (s1, r1) /\ misfit (n_as 2) s1 /\ misfit (mk_t 1 7 2 5 [1%N; 2%N; 3%N; 4%N]) s1 /\ misfit (mk_t 3 3 1 5 [1%N]) s1.
Proof. eexists _, _. split; [vm_compute; reflexivity|]. unfold misfit. cbn. lia. Qed.

(* interleaved datagrams of two messages *)
Definition w_mixed : list transport := [n_as 0; n_bs 0; n_as 1; n_bs 1; n_as 2].
Definition w_sent (k : key) : list msg := if key_eqb k (1, 7)%Z then [w_a] else if key_eqb k (2, 8)%Z then [w_b] else [].
Lemma w_streams k ts : (key_eqb k (1, 7)%Z = true -> filter (t_is k) ts = w_as) -> (key_eqb k (2, 8)%Z = true -> filter (t_is k) ts = w_bs) ->
  (key_eqb k (1, 7)%Z = false -> key_eqb k (2, 8)%Z = false -> filter (t_is k) ts = []) -> stream 2 k (w_sent k) (filter (t_is k) ts).
Proof.
  intros H1 H2 H3. unfold w_sent. destruct (key_eqb k (1, 7)%Z) eqn:E1.
  - rewrite (H1 eq_refl). apply key_eqb_eq in E1. subst k. rewrite <- (app_nil_r w_as). apply st_more; [reflexivity|exact w_transmits|constructor].
  - destruct (key_eqb k (2, 8)%Z) eqn:E2.
    + rewrite (H2 eq_refl). apply key_eqb_eq in E2. subst k. rewrite <- (app_nil_r w_bs). apply st_more; [reflexivity|exact (transmits_from 2 w_b 0 (Nat.le_0_l _))|constructor].
    + rewrite (H3 eq_refl eq_refl). constructor.
Qed.
Lemma filter_none k ts : (forall t, In t ts -> t_key t = (1, 7)%Z \/ t_key t = (2, 8)%Z) -> key_eqb k (1, 7)%Z = false -> key_eqb k (2, 8)%Z = false -> filter (t_is k) ts = [].
Proof.
  intros H H1 H2. induction ts as [|t ts IH]; [reflexivity|]. cbn. unfold t_is at 1. destruct (H t (or_introl eq_refl)) as [-> | ->]; rewrite ?H1, ?H2; apply IH; intros; apply H; right; assumption.
Qed.
Lemma w_proper l : ~ In Clear l -> arrivals l = w_mixed \/ arrivals l = w_as ++ w_bs -> proper 2 w_sent l.
Proof.
  intros Hc Ha. split; [lia|]. split; [exact Hc|]. intros k. apply w_streams.
  - intros E. apply key_eqb_eq in E. subst k. destruct Ha as [-> | ->]; reflexivity.
  - intros E. apply key_eqb_eq in E. subst k. destruct Ha as [-> | ->]; reflexivity.
  - intros E1 E2. apply filter_none; auto. intros t Ht. destruct Ha as [-> | ->] in Ht; cbn in Ht; repeat (destruct Ht as [<-|Ht]; [auto|]); destruct Ht.
Qed.
Definition w_l : list op := map Arrive w_mixed ++ [Next (Of_corr 7%Z); Next Any].
Example ex_mixed : proper 2 w_sent w_l /\ by_key w_l /\ snd (run w_l empty) = [Got w_a; Got w_b].
Proof.
  split; [apply w_proper; [cbn; intuition discriminate|left; reflexivity]|]. split; [|vm_compute; reflexivity].
  intros p. split; cbn; intuition discriminate.
Qed.
Example ex_nothing : snd (step (Next (Of_type 9%Z)) (fst (run w_l empty))) = [Nothing].
Proof. vm_compute. reflexivity. Qed.
(* two whole messages, the second is asked for by its type: the first is passed by, as it was not selected; without a selection it comes first *)
Example ex_overtaking : let l := map Arrive (w_as ++ w_bs) in proper 2 w_sent (l ++ [Next Any]) /\ arrivals l = w_as ++ w_bs /\
  filter (t_is (m_key w_b)) w_as = [] /\ filter (t_is (m_key w_a)) w_bs = [] /\
  snd (run (l ++ [Next Any; Next Any]) empty) = [Got w_a; Got w_b] /\ snd (run (l ++ [Next (Of_type 2%Z)]) empty) = [Got w_b].
Proof.
  cbv zeta. split; [apply w_proper; [cbn; intuition discriminate|right; reflexivity]|]. repeat (split; [vm_compute; reflexivity|]). vm_compute; reflexivity.
Qed.
(* the discard comes when two of the three datagrams have arrived *)
Example ex_discard : let l := map Arrive [n_as 0; n_bs 0; n_as 1] ++ Discard (m_corr w_a) :: map Arrive [n_bs 1; n_as 2] ++ [Next Any; Next Any] in
  proper 2 w_sent l /\ w_sent (m_key w_a) = [w_a] /\ (forall t, In t (arrivals l) -> t_corr t = m_corr w_a -> t_key t = m_key w_a) /\ pushed l = [] /\
  snd (run l empty) = [Got w_b; Dropped w_a; Nothing].
Proof.
  cbv zeta. split; [apply w_proper; [cbn; intuition discriminate|left; reflexivity]|]. split; [reflexivity|]. split; [|split; vm_compute; reflexivity].
  intros t Ht. cbn in Ht. repeat (destruct Ht as [<-|Ht]; [cbn; intros; solve [reflexivity|discriminate]|]). destruct Ht.
Qed.

(* ---------------------------------------------------------------- refuted *)
(* clear in the middle of a message: its next datagram raises an error in whatever the process asks for next, which was there to be had *)
Theorem C30_clear_refuted : ~ forall l s r, (forall k, stream 2 k (w_sent k) (filter (t_is k) (arrivals l))) -> run l empty = (s, r) -> ~ In Raised r.
Proof.
  intros H. set (l := map Arrive [n_as 0] ++ [Clear] ++ map Arrive [n_as 1; n_as 2; n_bs 0; n_bs 1] ++ [Next (Of_corr 8%Z)]).
  destruct (run l empty) as [s r] eqn:E. apply (H l s r); [|exact E|vm_compute in E; injection E as _ <-; left; reflexivity].
  intros k. assert (P : proper 2 w_sent (map Arrive (w_as ++ w_bs))).
  { apply w_proper; [|right; vm_compute; reflexivity]. intros Hc. apply in_map_iff in Hc. destruct Hc as (x & Hc & _). discriminate. }
  destruct P as (_ & _ & P). specialize (P k). replace (arrivals l) with (arrivals (map Arrive (w_as ++ w_bs))) by (vm_compute; reflexivity). exact P.
Qed.
(* a message of another type with the same correlation, of which only a part has arrived, hides the message from the discard *)
Theorem C49_shared_correlation_refuted : ~ forall max sent l1 l2 m, proper max sent (l1 ++ Discard (m_corr m) :: l2) -> sent (m_key m) = [m] ->
  (forall x, In x (pushed (l1 ++ Discard (m_corr m) :: l2)) -> m_corr x <> m_corr m) ->
  ~ In m (delivered (snd (run l1 empty))) -> ~ In m (delivered (snd (run (l1 ++ Discard (m_corr m) :: l2) empty))).
Proof.
  intros H. set (x := mk_msg 1 7 [1; 2; 3]%N). set (m := mk_msg 2 7 [4]%N).
  set (d := datagrams 2 x). specialize (H 2 (fun k => if key_eqb k (2, 7)%Z then [m] else []) (map Arrive (firstn 1 d ++ datagrams 2 m)) [Next (Of_type 2%Z)] m).
  apply H; [|reflexivity|intros y []|vm_compute; tauto|vm_compute; tauto].
  split; [lia|]. split; [cbn; intuition discriminate|]. intros k.
  replace (arrivals _) with (firstn 1 d ++ datagrams 2 m) by (vm_compute; reflexivity).
  destruct (key_eqb k (2, 7)%Z) eqn:E.
  - apply key_eqb_eq in E. subst k. replace (filter _ _) with (datagrams 2 m ++ []) by (vm_compute; reflexivity). apply st_more; [reflexivity|exact (transmits_from 2 m 0 (Nat.le_0_l _))|constructor].
  - destruct (key_eqb k (1, 7)%Z) eqn:E1.
    + apply key_eqb_eq in E1. subst k. replace (filter _ _) with (firstn 1 d) by (vm_compute; reflexivity). apply (st_part 2 _ x (firstn 1 d) (skipn 1 d)); [reflexivity|discriminate|]. rewrite firstn_skipn. exact (transmits_from 2 x 0 (Nat.le_0_l _)).
    + replace (filter (t_is k) (firstn 1 d ++ datagrams 2 m)) with (@nil transport); [constructor|]. cbn [firstn app d datagrams parts filter]. unfold t_is, t_key. cbn. unfold d, datagrams, x, m. cbn. unfold t_is, t_key. cbn. rewrite E, E1. reflexivity.
Qed.

Print Assumptions C29_datagrams.
Print Assumptions C29_round_trip.
Print Assumptions C29_resend.
Print Assumptions C29_authentic.
Print Assumptions C29_misfit_rejected.
Print Assumptions C29_misfit_harmless.
Print Assumptions C30_never_raises.
Print Assumptions C30_exactly_once.
Print Assumptions C30_in_order.
Print Assumptions C30_nothing_left.
Print Assumptions C30_as_requested.
Print Assumptions C30_no_overtaking.
Print Assumptions C30_clear_refuted.
Print Assumptions C49_discarded_partial.
Print Assumptions C49_shared_correlation_refuted.
