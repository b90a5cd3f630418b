(* What the device holds for one key, and one datagram. *)
From Coq Require Import ZArith List Bool Arith Lia.
From Verif Require Import IpcModel IpcSpec IpcChunk.
Import ListNotations.

Definition c_key (c : complete) : key := (c_type c, c_corr c).
Definition c_is (k : key) (c : complete) : bool := key_eqb k (c_key c).
Definition proj (k : key) (l : list complete) : list complete := filter (c_is k) l.

Lemma key_eqb_eq a b : key_eqb a b = true <-> a = b.
Proof. unfold key_eqb. rewrite andb_true_iff, !Z.eqb_eq. destruct a, b; cbn. split; [intros [-> ->]; reflexivity|intros [= -> ->]; auto]. Qed.
Lemma key_eqb_refl a : key_eqb a a = true.
Proof. apply key_eqb_eq. reflexivity. Qed.
Lemma key_eqb_neq a b : key_eqb a b = false <-> a <> b.
Proof. rewrite <- key_eqb_eq. destruct (key_eqb a b); split; congruence. Qed.
Lemma key_dec (a b : key) : {a = b} + {a <> b}.
Proof. destruct (key_eqb a b) eqn:E; [left; apply key_eqb_eq; exact E|right; apply key_eqb_neq; exact E]. Defined.

Lemma takes_key t c : takes t c = true -> c_key c = t_key t /\ is_complete c = false.
Proof. unfold takes. rewrite !andb_true_iff, negb_true_iff, !Z.eqb_eq. intros [[A B] C]. unfold c_key, t_key. rewrite B, C. auto. Qed.
Lemma takes_other t c k : t_key t = k -> c_key c <> k -> takes t c = false.
Proof. intros H1 H2. destruct (takes t c) eqn:E; [|reflexivity]. apply takes_key in E. destruct E; congruence. Qed.
Lemma takes_incomplete t c : c_key c = t_key t -> takes t c = negb (is_complete c).
Proof. unfold c_key, t_key, takes. intros [= -> ->]. rewrite !Z.eqb_refl, !andb_true_r. reflexivity. Qed.

Lemma add_key t c c' : add t c = Some c' -> c_key c' = c_key c.
Proof. unfold add. destruct (_ <? _); [intros [= <-]; reflexivity|]. destruct (_ <? _); [discriminate|]. destruct (_ <? _); [discriminate|]. intros [= <-]. reflexivity. Qed.
Lemma fresh_key t c' : fresh t = Some c' -> c_key c' = t_key t.
Proof. intros H. apply add_key in H. exact H. Qed.

Lemma receive_key t l a c b : receive t l = Some (a, c, b) -> c_key c = t_key t.
Proof.
  revert a c b. induction l as [|x l IH]; intros a c b; cbn [receive].
  - destruct (fresh t) eqn:E; [|discriminate]. intros [= <- <- <-]. apply fresh_key in E. exact E.
  - destruct (takes t x) eqn:T.
    + destruct (add t x) eqn:E; [|discriminate]. intros [= <- <- <-]. apply add_key in E. apply takes_key in T. rewrite E. tauto.
    + destruct (receive t l) as [[[a' c'] b']|] eqn:E; [|discriminate]. intros [= <- <- <-]. apply (IH _ _ _ eq_refl).
Qed.

Lemma receive_other t l a c b k : receive t l = Some (a, c, b) -> t_key t <> k -> proj k (a ++ b) = proj k l /\ proj k (a ++ c :: b) = proj k l.
Proof.
  intros H Hk. assert (Hc : c_is k c = false).
  { apply receive_key in H. unfold c_is. rewrite H. apply key_eqb_neq. congruence. }
  assert (H1 : proj k (a ++ b) = proj k l).
  { revert a c b H Hc. induction l as [|x l IH]; intros a c b; cbn [receive].
    - destruct (fresh t); [|discriminate]. intros [= <- <- <-] Hc. reflexivity.
    - destruct (takes t x) eqn:T.
      + destruct (add t x) eqn:E; [|discriminate]. intros [= <- <- <-] Hc. apply add_key in E. unfold proj. cbn [app filter].
        replace (c_is k x) with false; [reflexivity|]. unfold c_is in *. congruence.
      + destruct (receive t l) as [[[a' c'] b']|] eqn:E; [|discriminate]. intros [= <- <- <-] Hc. unfold proj in *. cbn [app filter].
        rewrite (IH _ _ _ eq_refl Hc). reflexivity. }
  split; [exact H1|]. rewrite <- H1. unfold proj. rewrite !filter_app. cbn [filter]. rewrite Hc. reflexivity.
Qed.

Lemma receive_same t l : receive t (proj (t_key t) l) =
  match receive t l with Some (a, c, b) => Some (proj (t_key t) a, c, proj (t_key t) b) | None => None end.
Proof.
  set (k := t_key t). induction l as [|x l IH]; unfold proj; cbn [filter receive].
  - destruct (fresh t); reflexivity.
  - fold (proj k l). destruct (c_is k x) eqn:Ex.
    + cbn [receive]. destruct (takes t x) eqn:T.
      * destruct (add t x); reflexivity.
      * rewrite IH. destruct (receive t l) as [[[a c] b]|]; [|reflexivity]. cbn [filter]. rewrite Ex. reflexivity.
    + rewrite (takes_other t x k eq_refl). 2:{ intros E. unfold c_is in Ex. rewrite E, key_eqb_refl in Ex. discriminate. }
      rewrite IH. destruct (receive t l) as [[[a c] b]|]; [|reflexivity]. cbn [filter]. rewrite Ex. reflexivity.
Qed.

(* ---------------------------------------------------------------- one key *)
(* the complete messages ms, and possibly, last, the incomplete p = (m, i): the first i datagrams of m; ts carries the rest *)
Definition rep (ord : bool) (max : nat) (ms : list msg) (p : option (msg * nat)) (l : list complete) : Prop :=
  match p with
  | None => l = map whole ms
  | Some (m, i) => exists a c b, l = a ++ c :: b /\ a ++ b = map whole ms /\ partial max m i c /\ 0 < i < length (datagrams max m) /\ (ord = true -> b = [])
  end.
Definition flow (max : nat) (k : key) (p : option (msg * nat)) (rest : list msg) (ts : list transport) : Prop :=
  match p with
  | None => stream max k rest ts
  | Some (m, i) => m_key m = k /\
      ((exists t1 t2 rest', ts = t1 ++ t2 /\ rest = m :: rest' /\ transmits max m i t1 /\ stream max k rest' t2) \/
       (rest = [] /\ exists more, more <> [] /\ transmits max m i (ts ++ more)))
  end.

Lemma whole_complete m : is_complete (whole m) = true.
Proof. unfold is_complete, whole. cbn. apply Nat.eqb_refl. Qed.
Lemma whole_msg m : msg_of (whole m) = m.
Proof. destruct m; reflexivity. Qed.
Lemma whole_of c : is_complete c = true -> whole (msg_of c) = c.
Proof. unfold is_complete. intros H. apply Nat.eqb_eq in H. destruct c; cbn in *. unfold whole. cbn. congruence. Qed.

Lemma receive_skip t l r : forallb is_complete l = true -> receive t (l ++ r) = match receive t r with Some (a, c, b) => Some (l ++ a, c, b) | None => None end.
Proof.
  induction l as [|x l IH]; cbn [forallb app].
  - intros _. destruct (receive t r) as [[[a c] b]|]; reflexivity.
  - intros H. apply andb_true_iff in H. destruct H as [Hx H]. cbn [receive]. unfold takes. rewrite Hx. cbn [negb andb]. rewrite (IH H).
    destruct (receive t r) as [[[a c] b]|]; reflexivity.
Qed.
Lemma wholes_complete ms : forallb is_complete (map whole ms) = true.
Proof. induction ms as [|m ms IH]; [reflexivity|]. cbn [map forallb]. rewrite whole_complete, IH. reflexivity. Qed.
Lemma forallb_app_l {A} (p : A -> bool) a b : forallb p (a ++ b) = true -> forallb p a = true.
Proof. rewrite forallb_app, andb_true_iff. tauto. Qed.

(* what follows when the next datagram of the flow is t *)
Inductive move (ord : bool) (max : nat) (k : key) (ms : list msg) (p : option (msg * nat)) (rest : list msg) (ts : list transport) (l a : list complete) (c : complete) (b : list complete) : Prop :=
| mv_done m rest' : is_complete c = true -> msg_of c = m -> m_key m = k -> a ++ b = map whole ms -> (ord = true -> b = []) -> rest = m :: rest' -> flow max k None rest' ts -> move ord max k ms p rest ts l a c b
| mv_on m i : is_complete c = false -> rep ord max ms (Some (m, i)) (a ++ c :: b) -> flow max k (Some (m, i)) rest ts -> move ord max k ms p rest ts l a c b.

Lemma transmits_nonempty max m i : i < length (datagrams max m) -> transmits max m i [] -> False.
Proof. intros H T. inversion T; subst. lia. Qed.
Lemma transmits_le max m i ts : transmits max m i ts -> i <= length (datagrams max m).
Proof. induction 1; lia. Qed.

(* a datagram which transmits the message, with the first i already there *)
Lemma transmits_step max m i t ts (Hm : 0 < max) : transmits max m i (t :: ts) -> i < length (datagrams max m) -> t_key t = m_key m /\
  ((exists j, j < i /\ nth_error (datagrams max m) j = Some t /\ transmits max m i ts) \/ (nth_error (datagrams max m) i = Some t /\ transmits max m (S i) ts)).
Proof.
  intros T Hi. inversion T as [|i' t' ts' Hn T' |i' j t' ts' Hj Hl Hn T']; subst.
  - split; [eapply datagram_key; eauto|]. right. auto.
  - split; [eapply datagram_key; eauto|]. left. eauto.
Qed.

(* a message is under way (m, i), or about to start (i = 0) *)
Lemma under_way max k m i t ts rest : 0 < max -> i < length (datagrams max m) -> flow max k (Some (m, i)) rest (t :: ts) ->
  (exists j, j < i /\ nth_error (datagrams max m) j = Some t /\ flow max k (Some (m, i)) rest ts) \/
  (nth_error (datagrams max m) i = Some t /\ S i < length (datagrams max m) /\ flow max k (Some (m, S i)) rest ts) \/
  (nth_error (datagrams max m) i = Some t /\ S i = length (datagrams max m) /\ exists rest', rest = m :: rest' /\ stream max k rest' ts).
Proof.
  intros Hm Hi (Hk & F). destruct F as [(t1 & t2 & rest' & E & -> & T & S')|(-> & more & Hmore & T)].
  - destruct t1 as [|t0 t1]; [exfalso; eapply transmits_nonempty; eauto|]. cbn in E. injection E as <- ->.
    destruct (transmits_step _ _ _ _ _ Hm T Hi) as (Kt & [(j & Hj & Hn & T')|(Hn & T')]).
    + left. exists j. split; [exact Hj|]. split; [exact Hn|]. split; [exact Hk|]. left. exists t1, t2, rest'. auto.
    + right. destruct (Nat.eq_dec (S i) (length (datagrams max m))) as [El|Nl].
      * right. split; [exact Hn|]. split; [exact El|]. exists rest'. split; [reflexivity|].
        assert (t1 = []) as ->; [|exact S'].
        inversion T' as [|i' t' ts' Hn' _ |]; subst; [reflexivity| |lia].
        assert (S i < length (datagrams max m)) by (apply nth_error_Some; congruence). lia.
      * left. pose proof (transmits_le _ _ _ _ T'). split; [exact Hn|]. split; [lia|]. split; [exact Hk|]. left. exists t1, t2, rest'. auto.
  - cbn in T. destruct (transmits_step _ _ _ _ _ Hm T Hi) as (Kt & [(j & Hj & Hn & T')|(Hn & T')]).
    + left. exists j. split; [exact Hj|]. split; [exact Hn|]. split; [exact Hk|]. right. split; [reflexivity|]. exists more. auto.
    + destruct (Nat.eq_dec (S i) (length (datagrams max m))) as [El|Nl].
      * exfalso. inversion T' as [E0 E1|i' t' ts' Hn' _ |i' j' t' ts' Hj' Hl' Hn']; subst.
        { symmetry in E1. apply app_eq_nil in E1. destruct E1. congruence. }
        { assert (S i < length (datagrams max m)) by (apply nth_error_Some; congruence). lia. }
        { lia. }
      * right. left. pose proof (transmits_le _ _ _ _ T'). split; [exact Hn|]. split; [lia|]. split; [exact Hk|]. right. split; [reflexivity|]. exists more. auto.
Qed.

Lemma stream_starts max k rest t ts : 0 < max -> stream max k rest (t :: ts) -> exists m, m_key m = k /\ flow max k (Some (m, 0)) rest (t :: ts).
Proof.
  intros Hm H. inversion H as [|m ts' more Hk Hmore T E1 E2|m ms t1 t2 Hk T S' E1 E2]; subst.
  - exists m. split; [reflexivity|]. split; [reflexivity|]. right. split; [reflexivity|]. exists more. auto.
  - exists m. split; [reflexivity|]. split; [reflexivity|]. left. exists t1, t2, ms. auto.
Qed.

Lemma receive_wholes t ms : receive t (map whole ms) = match fresh t with Some c => Some (map whole ms, c, []) | None => None end.
Proof.
  rewrite <- (app_nil_r (map whole ms)) at 1. rewrite receive_skip by apply wholes_complete. cbn [receive].
  destruct (fresh t); [rewrite app_nil_r|]; reflexivity.
Qed.

Lemma recv_key ord max k ms p rest t ts l : 0 < max -> t_key t = k -> rep ord max ms p l -> flow max k p rest (t :: ts) ->
  exists a c b, receive t l = Some (a, c, b) /\ move ord max k ms p rest ts l a c b.
Proof.
  intros Hm Hk R F. destruct p as [[m i]|].
  - destruct R as (a & c & b & -> & Hab & P & Hi & Ho). pose proof (wholes_complete ms) as Hw. rewrite <- Hab in Hw. pose proof (forallb_app_l _ _ _ Hw) as Ha.
    pose proof F as (Hkm & _). assert (Hck : c_key c = t_key t).
    { rewrite Hk, <- Hkm. unfold c_key, m_key. rewrite (pa_type _ _ _ _ P), (pa_corr _ _ _ _ P). reflexivity. }
    assert (Ht : takes t c = true) by (rewrite (takes_incomplete t c Hck), (partial_incomplete _ _ _ _ Hm P) by lia; reflexivity).
    rewrite (receive_skip t a (c :: b) Ha). cbn [receive]. rewrite Ht.
    destruct (under_way max k m i t ts rest Hm (proj2 Hi) F) as [(j & Hj & Hn & F')|[(Hn & Hl & F')|(Hn & Hl & rest' & -> & S')]].
    + rewrite (add_again _ _ _ _ _ _ Hm P Hj Hn). exists (a ++ []), c, b. split; [reflexivity|]. rewrite app_nil_r. apply (mv_on _ _ _ _ _ _ _ _ _ _ _ m i).
      * eapply partial_incomplete; eauto; lia.
      * exists a, c, b. auto.
      * exact F'.
    + destruct (add_next _ _ _ _ _ Hm P Hn) as (c' & E & _ & P'). specialize (P' Hl). rewrite E. exists (a ++ []), c', b. split; [reflexivity|]. rewrite app_nil_r.
      apply (mv_on _ _ _ _ _ _ _ _ _ _ _ m (S i)).
      * eapply partial_incomplete; eauto; lia.
      * exists a, c', b. split; [reflexivity|]. split; [exact Hab|]. split; [exact P'|]. split; [lia|exact Ho].
      * exact F'.
    + destruct (add_next _ _ _ _ _ Hm P Hn) as (c' & E & W & _). specialize (W Hl). rewrite E. exists (a ++ []), c', b. split; [reflexivity|]. rewrite app_nil_r.
      subst c'. apply (mv_done _ _ _ _ _ _ _ _ _ _ _ m rest'); auto; [apply whole_complete|apply whole_msg].
  - cbn in R. subst l. rewrite receive_wholes.
    destruct (stream_starts max k rest t ts Hm F) as (m & Hkm & F'). pose proof (datagrams_len max m Hm) as Hlen.
    destruct (under_way max k m 0 t ts rest Hm Hlen F') as [(j & Hj & _)|[(Hn & Hl & F'')|(Hn & Hl & rest' & -> & S')]]; [lia| |].
    + destruct (fresh_first max m t Hm Hn) as (c' & E & _ & P'). specialize (P' Hl). rewrite E. exists (map whole ms), c', []. split; [reflexivity|].
      apply (mv_on _ _ _ _ _ _ _ _ _ _ _ m 1).
      * apply (partial_incomplete max m 1 c' Hm P'); lia.
      * exists (map whole ms), c', []. rewrite app_nil_r. split; [reflexivity|]. split; [reflexivity|]. split; [exact P'|]. split; [lia|reflexivity].
      * exact F''.
    + destruct (fresh_first max m t Hm Hn) as (c' & E & W & _). specialize (W Hl). rewrite E. exists (map whole ms), c', []. split; [reflexivity|].
      subst c'. apply (mv_done _ _ _ _ _ _ _ _ _ _ _ m rest'); auto; [apply whole_complete|apply whole_msg|apply app_nil_r].
Qed.
