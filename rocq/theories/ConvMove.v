(* The moves of a process, and that they keep the invariant *)
From Coq Require Import ZArith List Bool Lia.
From Verif Require Import ConvModel ConvSpec ConvProofs ConvInv ConvShape.
Import ListNotations.
Local Open Scope Z_scope.

Definition v_with (d : duplex) (v : value) : value := mk_value (v_corr v) (v_peer v) d (v_init v).
Inductive move (x : Z) (i : input) (o : output) (s : proc) : proc -> list (Z * msg) -> list event -> Prop :=
| mv_none : move x i o s s [] []
| mv_next : move x i o s (w_next (p_next s + 1) s) [] []
| mv_call t d data ds n : p_conn s = None -> (forall so ro dat k f, i = Tpconnect so ro dat (Found k f) -> k = t) -> (exists so ro dat f, i = Tpconnect so ro dat (Found t f)) -> reserve (mk_value (x, p_next s) t d true) (p_descs s) = (ds, n) ->
    move x i o s (w_conn (Some (n, (x, p_next s))) (w_descs ds (w_next (p_next s + 1) s))) [(t, mk_msg (x, p_next s) (Request x (invert d) data))] [Called (x, p_next s) t; Sent (x, p_next s) (gives (invert d)) data]
| mv_connected n c a b g : p_conn s = Some (n, c) -> p_inbox s = a ++ mk_msg c Connected :: b -> (forall v, at_ n (p_descs s) = Some v -> g = gives (v_dup v)) -> move x i o s (w_conn None (w_inbox (a ++ b) s)) [] [Opened c (Z.of_nat n) g]
| mv_signal n c : p_conn s = Some (n, c) -> move x i o s (w_conn None (w_descs (set_at n None (p_descs s)) s)) [] []
| mv_leave n v : p_conn s = None -> at_ n (p_descs s) = Some v -> move x i o s (w_descs (set_at n None (p_descs s)) s) [] [Closed (v_corr v) (Z.of_nat n)]
| mv_discon n v : p_conn s = None -> at_ n (p_descs s) = Some v -> v_init v = true -> i = Tpdiscon (Z.of_nat n) None -> o = O_ok ->
    move x i o s (w_descs (set_at n None (p_descs s)) s) [(v_peer v, mk_msg (v_corr v) Disconnect)] [Closed (v_corr v) (Z.of_nat n)]
| mv_end n v a m b : p_conn s = None -> at_ n (p_descs s) = Some v -> p_inbox s = a ++ m :: b -> m_corr m = v_corr v -> match m_body m with Returned _ _ _ | Disconnect | ServerDied => True | _ => False end ->
    move x i o s (w_descs (set_at n None (p_descs s)) (w_inbox (a ++ b) s)) [] [Closed (v_corr v) (Z.of_nat n)]
| mv_send n v d data : p_conn s = None -> at_ n (p_descs s) = Some v -> v_dup v = DSend -> (forall m, In m (p_inbox s) -> is_message (v_corr v) m = false) ->
    move x i o s (w_descs (set_at n (Some (v_with d v)) (p_descs s)) s) [(v_peer v, mk_msg (v_corr v) (Data (invert d) data))] [Sent (v_corr v) (gives (invert d)) data]
| mv_recv n v a d data b told : p_conn s = None -> at_ n (p_descs s) = Some v -> v_dup v = DReceive -> p_inbox s = a ++ mk_msg (v_corr v) (Data d data) :: b -> (forall m, In m a -> is_message (v_corr v) m = false) ->
    move x i o s (w_descs (set_at n (Some (v_with d v)) (p_descs s)) (w_inbox (a ++ b) s)) [] [Got (v_corr v) (gives d) data told]
| mv_bad n v a d data b : p_conn s = None -> at_ n (p_descs s) = Some v -> v_dup v = DSend -> p_inbox s = a ++ mk_msg (v_corr v) (Data d data) :: b ->
    move x i o s (w_descs (set_at n None (p_descs s)) (w_inbox (a ++ b) s)) [] [Got (v_corr v) (gives d) data false; Closed (v_corr v) (Z.of_nat n)]
| mv_invoke c f d data r ds n : p_conn s = None -> p_serv s = None -> i = Pump -> p_inbox s = mk_msg c (Request f d data) :: r -> reserve (mk_value c f d false) (p_descs s) = (ds, n) ->
    move x i o s (w_serv (Some (n, c, f)) (w_descs ds (w_inbox r s))) [(f, mk_msg c Connected)] [Opened c (Z.of_nat n) (gives d); Got c (gives d) data true]
| mv_lost m r : p_conn s = None -> p_serv s = None -> i = Pump -> p_inbox s = m :: r -> is_request (m_body m) = false -> move x i o s (w_inbox r s) [] [Lost m]
| mv_return n c f ou user data ms : p_serv s = Some (n, c, f) -> at_ n (p_descs s) = None -> (ms = [] \/ ms = [(f, mk_msg c (Returned (code_of ou) user data))]) -> move x i o s (w_serv None s) ms [Back c ou user data].

Lemma set_at_id n v l : at_ n l = Some v -> set_at n (Some v) l = l.
Proof. revert n. induction l as [|y l IH]; intros [|n]; unfold at_ in *; cbn; intros E; try discriminate; [congruence|]. rewrite IH by exact E. reflexivity. Qed.
Lemma with_id v : v_with (v_dup v) v = v.
Proof. destruct v; reflexivity. Qed.
Lemma is_disc_body c m : is_disconnect c m = true -> m_corr m = c /\ m_body m = Disconnect.
Proof. unfold is_disconnect. rewrite andb_true_iff, corr_eqb_eq. intros [E B]. split; [exact E|]. destruct (m_body m); try discriminate; reflexivity. Qed.
Lemma set_set n a b l : set_at n a (set_at n b l) = set_at n a l.
Proof. revert n. induction l as [|y l IH]; intros [|n]; cbn; try reflexivity. rewrite IH. reflexivity. Qed.

Lemma step_move x i s s' o ms ev : step x i s = (s', o, ms, ev) ->
  move x i o s s' ms ev \/ exists s1 n v, p_conn s = None /\ at_ n (p_descs s) = Some v /\ s1 = w_descs (set_at n None (p_descs s)) s /\ (exists ou user data, ev = [Closed (v_corr v) (Z.of_nat n); Back (match p_serv s with Some (_, c, _) => c | None => (0, 0) end) ou user data] /\ move x i o s1 s' ms [Back (match p_serv s with Some (_, c, _) => c | None => (0, 0) end) ou user data]) /\ i <> Pump /\ (forall d, i <> Tpdiscon d None) /\ p_serv s <> None.
Proof.
  intros H. assert (W : forall sig, i = Wait sig -> wait sig s = (s', o, ms, ev) -> move x i o s s' ms ev).
  { intros sig _. unfold wait. destruct (p_conn s) as [[n c]|] eqn:PC; [|intros [= <- <- <- <-]; constructor]. destruct (take (is_connected c) (p_inbox s)) as [[m r]|] eqn:T.
    - apply take_split in T. destruct T as (a & b & E & -> & F & _). unfold is_connected in F. rewrite andb_true_iff, corr_eqb_eq in F. destruct F as [C B]. assert (M : m = mk_msg c Connected) by (destruct m as [mc mb]; cbn in *; subst mc; destruct mb; try discriminate; reflexivity). subst m.
      intros [= <- <- <- <-]. apply mv_connected; [exact PC|exact E|]. intros v A. rewrite A. reflexivity.
    - destruct sig; intros [= <- <- <- <-]; [exact (mv_signal x _ _ s n c PC)|constructor]. }
  unfold step in H. destruct (p_conn s) as [[pn pc]|] eqn:PC.
  { left. destruct i; try (injection H as <- <- <- <-; constructor). exact (W sig eq_refl H). }
  destruct i as [so ro data l|sig|d ro data fails|d nb sg mm|d fails| |ou user data fails].
  - left. unfold tpconnect in H. destruct (xorb so ro); [|injection H as <- <- <- <-; constructor]. destruct l as [target [code|]|code]; try (injection H as <- <- <- <-; apply mv_next).
    destruct (reserve _ _) as [ds n] eqn:R. injection H as <- <- <- <-. apply mv_call; [exact PC|intros so' ro' dat k f [= _ _ _ <- _]; reflexivity|eexists _, _, _, _; reflexivity|exact R].
  - left. exact (W sig eq_refl H).
  - left. unfold tpsend in H. destruct (lookup d (p_descs s)) as [[n v]|] eqn:L; [|injection H as <- <- <- <-; constructor]. apply lookup_some in L. destruct L as [-> A]. destruct (v_dup v) eqn:DV; [|injection H as <- <- <- <-; constructor]. cbn [p_inbox w_descs] in H.
    destruct (take (is_disconnect (v_corr v)) (p_inbox s)) as [[m r]|] eqn:T.
    + apply take_split in T. destruct T as (a & b & E & -> & F & _). apply is_disc_body in F. destruct F as [C B]. cbn [drop p_descs w_inbox w_descs] in H. rewrite set_set in H. injection H as <- <- <- <-. apply (mv_end x _ _ s n v a m b PC A E C). rewrite B. exact I.
    + destruct (take (is_message (v_corr v)) (p_inbox s)) as [[m r]|] eqn:T2.
      * apply take_split in T2. destruct T2 as (a & b & E & -> & F & _). unfold is_message in F. rewrite andb_true_iff, corr_eqb_eq in F. destruct F as [C B]. cbn [drop p_descs w_inbox w_descs] in H. rewrite set_set in H.
        assert (EN : match m_body m with Returned _ _ _ | Disconnect | ServerDied => True | _ => False end -> move x (Tpsend (Z.of_nat n) ro data fails) o s (w_descs (set_at n None (p_descs s)) (w_inbox (a ++ b) s)) [] [Closed (v_corr v) (Z.of_nat n)]) by exact (mv_end x _ o s n v a m b PC A E C).
        destruct (m_body m) eqn:MB; try discriminate B.
        -- injection H as <- <- <- <-. assert (M : m = mk_msg (v_corr v) (Data d data0)) by (destruct m; cbn in *; congruence). subst m. exact (mv_bad x _ _ s n v a d data0 b PC A DV E).
        -- destruct (code =? TPESVCFAIL); injection H as <- <- <- <-; exact (EN I).
        -- injection H as <- <- <- <-; exact (EN I).
        -- injection H as <- <- <- <-; exact (EN I).
      * destruct fails as [code|].
        -- cbn [drop p_descs w_inbox w_descs] in H. rewrite set_set in H. injection H as <- <- <- <-. exact (mv_leave x _ _ s n v PC A).
        -- injection H as <- <- <- <-. exact (mv_send x _ _ s n v (convert ro) data PC A DV (take_none _ _ T2)).
  - left. unfold tprecv in H. destruct (lookup d (p_descs s)) as [[n v]|] eqn:L; [|injection H as <- <- <- <-; constructor]. apply lookup_some in L. destruct L as [-> A]. destruct (v_dup v) eqn:DV; [injection H as <- <- <- <-; constructor|].
    destruct (take (is_disconnect (v_corr v)) (p_inbox s)) as [[m r]|] eqn:T.
    + apply take_split in T. destruct T as (a & b & E & -> & F & _). apply is_disc_body in F. destruct F as [C B]. cbn [drop p_descs w_inbox w_descs] in H. injection H as <- <- <- <-. apply (mv_end x _ _ s n v a m b PC A E C). rewrite B. exact I.
    + destruct (take (is_message (v_corr v)) (p_inbox s)) as [[m r]|] eqn:T2.
      * apply take_split in T2. destruct T2 as (a & b & E & -> & F & NA). unfold is_message in F. rewrite andb_true_iff, corr_eqb_eq in F. destruct F as [C B]. cbn [drop p_descs w_inbox w_descs] in H.
        assert (EN : match m_body m with Returned _ _ _ | Disconnect | ServerDied => True | _ => False end -> move x (Tprecv (Z.of_nat n) nb sg mm) o s (w_descs (set_at n None (p_descs s)) (w_inbox (a ++ b) s)) [] [Closed (v_corr v) (Z.of_nat n)]) by exact (mv_end x _ o s n v a m b PC A E C).
        destruct (m_body m) eqn:MB; try discriminate B.
        -- injection H as <- <- <- <-. assert (M : m = mk_msg (v_corr v) (Data d data)) by (destruct m; cbn in *; congruence). subst m. pose proof (mv_recv x (Tprecv (Z.of_nat n) nb sg mm) (if mm then O_error TPEOTYPE else O_received (gives d) data) s n v a d data b (negb mm) PC A DV E NA) as MV.
           destruct d; [exact MV|]. rewrite <- DV in MV. rewrite with_id, (set_at_id n v _ A) in MV. rewrite DV in MV. destruct s; exact MV.
        -- injection H as <- <- <- <-. exact (EN I).
        -- injection H as <- <- <- <-. exact (EN I).
        -- injection H as <- <- <- <-. exact (EN I).
      * destruct nb; [injection H as <- <- <- <-; constructor|]. destruct sg; [|injection H as <- <- <- <-; constructor]. cbn [drop] in H. injection H as <- <- <- <-. exact (mv_leave x _ _ s n v PC A).
  - left. unfold tpdiscon in H. destruct (lookup d (p_descs s)) as [[n v]|] eqn:L; [|injection H as <- <- <- <-; constructor]. apply lookup_some in L. destruct L as [-> A]. destruct (v_init v) eqn:VI; [|injection H as <- <- <- <-; constructor]. cbn [drop] in H.
    destruct fails as [code|]; injection H as <- <- <- <-; [exact (mv_leave x _ _ s n v PC A)|exact (mv_discon x _ _ s n v PC A VI eq_refl eq_refl)].
  - left. unfold pump in H. destruct (p_serv s) as [?|] eqn:PS; [injection H as <- <- <- <-; constructor|]. destruct (p_inbox s) as [|m r] eqn:PI; [injection H as <- <- <- <-; constructor|].
    destruct (is_request (m_body m)) eqn:RQ.
    + destruct m as [mc mb]. cbn [m_body] in *. destruct mb; try discriminate RQ. cbn [m_corr p_descs w_inbox] in H. destruct (reserve _ _) as [ds n] eqn:R. injection H as <- <- <- <-. exact (mv_invoke x _ _ s mc from d data r ds n PC PS eq_refl PI R).
    + assert (E : (w_inbox r s, O_ignored, [], [Lost m]) = (s', o, ms, ev)) by (rewrite <- H; destruct (m_body m); try reflexivity; discriminate RQ). injection E as <- <- <- <-. exact (mv_lost x _ _ s m r PC PS eq_refl PI RQ).
  - unfold tpreturn in H. destruct (p_serv s) as [[[n c] f]|] eqn:PS; [|left; injection H as <- <- <- <-; constructor]. destruct (at_ n (p_descs s)) as [v|] eqn:A.
    + cbn [drop] in H. injection H as <- <- <- <-. right. eexists _, n, v. split; [reflexivity|]. split; [exact A|]. split; [reflexivity|]. split; [|split; [discriminate|split; [discriminate|congruence]]]. exists ou, user, data. split; [reflexivity|].
      apply (mv_return x _ _ _ n c f ou user data); [exact PS|cbn [p_descs w_descs]; rewrite at_set_none, Nat.eqb_refl; reflexivity|destruct fails; auto].
    + left. injection H as <- <- <- <-. apply (mv_return x _ _ s n c f ou user data); [exact PS|exact A|destruct fails; auto].
Qed.
