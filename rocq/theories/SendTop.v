(* The send coordinator: what the theorems need, and the way from one process to another. *)
From Coq Require Import ZArith List Bool Arith Lia.
From Verif Require Import IpcModel IpcSpec IpcChunk IpcProj IpcAcct IpcTop IpcMicro SendModel SendSpec SendProofs.
Import ListNotations.

Lemma payloads_all l : payloads l -> Forall with_payload l.
Proof. intros H. apply Forall_forall. intros [ipc m call open w| | |] Hx; cbn; try exact I. eapply H, Hx. Qed.
Lemma start_G max : G max (fun _ => []) [] [].
Proof. constructor; [constructor|intros ? []|]. intros d. exists [], 0. cbn. repeat split; auto. intros ? ? []. Qed.

Section Max.
Variable max : nat.
Hypothesis Hmax : 0 < max.

Lemma run_J l c es d : payloads l -> crun max l idle = (c, es) -> J max (given d l) (sent_to d es) (lost_to d es) (qof d (co_dest c)).
Proof. intros P E. destruct (crun_G max Hmax l (fun _ => []) [] idle c es (payloads_all l P) (start_G max) E) as (HG & _). exact (G_J _ _ _ _ HG d). Qed.
Lemma queue_qof d c : queue_to d c = map item_of (qof d (co_dest c)).
Proof. unfold queue_to, qof. induction (co_dest c) as [|r l IH]; [reflexivity|]. cbn. rewrite map_app, IH. destruct (r_ipc r =? d)%Z; reflexivity. Qed.

Definition waits (q : list job) (n : nat) : list (item * fate) := match q with [] => [] | j :: r => (item_of j, Waiting n) :: map (fun x => (item_of x, Waiting 0)) r end.
Lemma accounted l c es d : payloads l -> crun max l idle = (c, es) ->
  exists fs, sane max fs /\ map fst fs = given d l /\ sent_to d es = flat_map (fun x => grams max (fst (fst x)) (snd x)) fs /\
    lost_to d es = pick is_lost fs /\ queue_to d c = pick is_waiting fs.
Proof.
  intros P E. rewrite queue_qof. destruct (run_J l c es d P E) as (a & n & S & Hg & Hl & Hw & Hq). set (q := qof d (co_dest c)) in *. clearbody q.
  assert (Hnw : pick is_waiting a = []).
  { clear - S. induction a as [|[x f] a IH]; [reflexivity|]. unfold pick in *. cbn. pose proof (S x f (or_introl eq_refl)) as H. assert (is_waiting f = false) as -> by (destruct f; [reflexivity|reflexivity|contradiction]).
    apply IH. intros y g Hy. apply S. right. exact Hy. }
  assert (W0 : forall r, pick is_lost (map (fun x => (item_of x, Waiting 0)) r) = [] /\ pick is_waiting (map (fun x => (item_of x, Waiting 0)) r) = map item_of r /\ all_grams max (map (fun x => (item_of x, Waiting 0)) r) = []).
  { induction r as [|x r (I1 & I2 & I3)]; [auto|]. unfold pick, all_grams in *. cbn. rewrite I1, I2, I3. auto. }
  exists (a ++ waits q n). split; [split|split; [|split; [|split]]].
  - intros m cl k H. rewrite !in_app_iff in H. destruct H as [[H|H]|[H|H]].
    + exact (S _ _ H).
    + exfalso. destruct q as [|j r]; [destruct H|]. destruct H as [H|H]; [discriminate|]. apply in_map_iff in H. destruct H as (x & H & _). discriminate.
    + destruct (S _ _ H).
    + destruct q as [|j r]; [destruct H|]. destruct Hq as [(_ & Hn & _) F]. destruct H as [H|H].
      * injection H as <- <- <-. exact Hn.
      * apply in_map_iff in H. destruct H as (x & H & Hx). injection H as <- <- <-. rewrite Forall_forall in F. destruct (F x Hx) as (_ & F' & _). exact F'.
  - clear - S. induction a as [|[x f] a IH].
    + cbn. destruct q as [|j r]; [exact I|]. cbn. intros x f H. apply in_map_iff in H. destruct H as (y & H & _). congruence.
    + cbn. pose proof (S x f (or_introl eq_refl)) as H. assert (started_first (a ++ waits q n)) by (apply IH; intros y g Hy; apply S; right; exact Hy). destruct f; [assumption|assumption|contradiction].
  - rewrite map_app, Hg. f_equal. destruct q as [|j r]; [reflexivity|]. cbn. rewrite map_map. reflexivity.
  - change (sent_to d es = all_grams max (a ++ waits q n)). rewrite all_grams_app, Hw. f_equal. destruct q as [|j r]; [reflexivity|]. destruct (W0 r) as (_ & _ & W3). cbn [waits]. unfold all_grams in *. cbn. rewrite W3, app_nil_r. reflexivity.
  - rewrite pick_app, Hl. destruct q as [|j r]; [cbn; rewrite app_nil_r; reflexivity|]. destruct (W0 r) as (W1 & _ & _). unfold pick in *. cbn [waits filter is_lost snd]. rewrite W1, app_nil_r. reflexivity.
  - rewrite pick_app, Hnw. destruct q as [|j r]; [reflexivity|]. destruct (W0 r) as (_ & W2 & _). unfold pick in *. cbn [waits filter is_waiting snd map app fst]. rewrite W2. reflexivity.
Qed.

Lemma watched l c es : payloads l -> fresh_fds max l idle -> crun max l idle = (c, es) ->
  forall fd, In fd (co_write c) <-> exists r, In r (co_dest c) /\ r_fd r = fd /\ r_queue r <> [].
Proof.
  intros P F E fd. destruct (crun_G max Hmax l (fun _ => []) [] idle c es (payloads_all l P) (start_G max) E) as (HG & A).
  destruct A as [_ A]; [exact F|split; [constructor|reflexivity]|]. rewrite A, in_map_iff. split.
  - intros (r & <- & Hr). exists r. split; [exact Hr|]. split; [reflexivity|]. exact (G_busy _ _ _ _ HG r Hr).
  - intros (r & Hr & <- & _). eauto.
Qed.

(* ---------------------------------------------------------------- the datagrams of one key, when nothing is lost *)
Lemma filter_key k m ts : (forall t, In t ts -> t_key t = m_key m) -> filter (t_is k) ts = if m_is k m then ts else [].
Proof.
  intros H. unfold m_is. induction ts as [|t ts IH]; [cbn; destruct (key_eqb k (m_key m)); reflexivity|]. cbn. unfold t_is at 1. rewrite (H t (or_introl eq_refl)), IH by (intros; apply H; right; assumption).
  destruct (key_eqb k (m_key m)); reflexivity.
Qed.
Lemma in_datagrams_key m t : In t (datagrams max m) -> t_key t = m_key m.
Proof. intros H. apply In_nth_error in H. destruct H as (n & H). eapply datagram_key; eauto. Qed.
Lemma firstn_in {A} n (l : list A) x : In x (firstn n l) -> In x l.
Proof. revert n. induction l as [|y l IH]; intros [|n] H; cbn in *; auto; [contradiction|]. destruct H; eauto. Qed.

Lemma stream_of k fs : (forall x f, In (x, f) fs -> f = Done) -> forall m n, n < length (datagrams max m) ->
  stream max k (of_key k (map (fun x => fst (fst x)) fs)) (filter (t_is k) (all_grams max fs ++ firstn n (datagrams max m))).
Proof.
  intros Hd m n Hn. induction fs as [|[[x c] f] fs IH].
  - cbn [all_grams flat_map app map of_key filter]. rewrite (filter_key k m); [|intros t Ht; apply in_datagrams_key, (firstn_in n), Ht]. destruct (m_is k m) eqn:E; [|constructor].
    destruct n as [|n]; [constructor|]. apply key_eqb_eq in E. apply (st_part max k m _ (skipn (S n) (datagrams max m))); [congruence| |].
    + intros H. apply (f_equal (@length _)) in H. rewrite skipn_length in H. change (length (@nil transport)) with 0 in H. lia.
    + rewrite firstn_skipn. exact (transmits_from max m 0 (Nat.le_0_l _)).
  - assert (f = Done) as -> by (apply (Hd (x, c)); left; reflexivity).
    unfold all_grams. cbn [flat_map fst snd grams]. fold (all_grams max fs). rewrite <- app_assoc, filter_app. specialize (IH (fun y g Hy => Hd y g (or_intror Hy))).
    rewrite (filter_key k x); [|apply in_datagrams_key]. cbn [map of_key filter fst]. destruct (m_is k x) eqn:E; [|exact IH].
    apply st_more; [apply key_eqb_eq in E; congruence|exact (transmits_from max x 0 (Nat.le_0_l _))|exact IH].
Qed.

(* the messages that are completely sent, when none is given up *)
Definition sent_msgs (d : Z) (l : list cop) : list msg :=
  let c := fst (crun max l idle) in map fst (firstn (length (given d l) - length (queue_to d c)) (given d l)).

Lemma sent_stream l d k : payloads l -> lost_to d (snd (crun max l idle)) = [] ->
  stream max k (of_key k (sent_msgs d l)) (filter (t_is k) (sent_to d (snd (crun max l idle)))) /\
  of_key k (map fst (given d l)) = of_key k (sent_msgs d l) ++ of_key k (map fst (queue_to d (fst (crun max l idle)))).
Proof.
  intros P Hl. unfold sent_msgs. destruct (crun max l idle) as [c es] eqn:E. cbn [fst snd] in *. rewrite queue_qof.
  destruct (run_J l c es d P E) as (a & n & S & Hg & Hla & Hw & Hq). set (q := qof d (co_dest c)) in *. clearbody q. rewrite Hl in Hla.
  assert (Hd : forall x f, In (x, f) a -> f = Done).
  { clear - S Hla. intros x f H. pose proof (S x f H) as Hx. destruct f; [reflexivity| |contradiction]. exfalso. assert (In x (pick is_lost a)) as Hin; [|rewrite <- Hla in Hin; destruct Hin].
    apply in_map_iff. exists (x, Lost n). split; [reflexivity|]. apply filter_In. auto. }
  rewrite Hg. rewrite map_length, app_length, !map_length. replace (length a + length q - length q) with (length (map fst a)) by (rewrite map_length; lia).
  rewrite firstn_app, firstn_all, Nat.sub_diag. cbn [firstn]. rewrite app_nil_r, map_app. split; [|unfold of_key; rewrite filter_app; reflexivity].
  rewrite map_map, Hw. destruct q as [|j r].
  - pose proof (stream_of k a Hd (mk_msg 0 0 []) 0) as H. cbn [firstn] in H. apply H. pose proof (datagrams_len max (mk_msg 0 0 []) Hmax). lia.
  - destruct Hq as [(_ & Hn & _) _]. exact (stream_of k a Hd (j_msg j) n Hn).
Qed.

(* any number of sending processes, every type and correlation used by one of them; the receiver gets the datagrams of each in order *)
Theorem end_to_end (senders : nat -> list cop) (own : key -> nat) d l s r k :
  (forall i, payloads (senders i) /\ lost_to d (snd (crun max (senders i) idle)) = []) ->
  (forall k, filter (t_is k) (arrivals l) = filter (t_is k) (sent_to d (snd (crun max (senders (own k)) idle)))) ->
  ~ In Clear l -> by_key l -> of_key k (pushed l) = [] -> run l empty = (s, r) -> of_key k (dropped r) = [] ->
  exists rest, of_key k (map fst (given d (senders (own k)))) =
    of_key k (delivered r) ++ of_key k (ready s) ++ rest ++ of_key k (map fst (queue_to d (fst (crun max (senders (own k)) idle)))) /\ (i_wire s = [] -> rest = []).
Proof.
  intros Hs Ha Hc Hb Hp E Hd. assert (P : proper max (fun k => of_key k (sent_msgs d (senders (own k)))) l).
  { split; [exact Hmax|]. split; [exact Hc|]. intros k'. rewrite Ha. destruct (Hs (own k')) as [P1 P2]. apply sent_stream; assumption. }
  destruct (in_order max _ l s r k P Hb Hp E) as (rest & _ & Hr & Heq). exists rest. split; [|exact Hr]. destruct (Hs (own k)) as [P1 P2]. destruct (sent_stream (senders (own k)) d k P1 P2) as (_ & ->). rewrite (Heq Hd), <- !app_assoc. reflexivity.
Qed.
End Max.
