(* The moves keep the invariant *)
From Coq Require Import ZArith List Bool Lia.
From Verif Require Import ConvModel ConvSpec ConvProofs ConvInv ConvShape ConvMove.
Import ListNotations.
Local Open Scope Z_scope.

Definition nw (w : world) (x : Z) (s : proc) (ms : list (Z * msg)) : world := mk_world (put x s (w_proc w)) (w_net w ++ map (fun z => (x, fst z, snd z)) ms).
Lemma put_same p s f : put p s f p = s.
Proof. unfold put. rewrite Z.eqb_refl. reflexivity. Qed.
Lemma put_other p s f x : x <> p -> put p s f x = f x.
Proof. intros N. unfold put. rewrite (proj2 (Z.eqb_neq x p) N). reflexivity. Qed.
Definition sel (y : Z) (c : corr) (ms : list (Z * msg)) : list body := flat_map (fun z => if (fst z =? y) && corr_eqb (m_corr (snd z)) c then [m_body (snd z)] else []) ms.
Lemma way_new a b c x ms : way a b c (map (fun z => (x, fst z, snd z)) ms) = if a =? x then sel b c ms else [].
Proof.
  induction ms as [|[y m] ms IH]; [destruct (a =? x); reflexivity|]. unfold way, sel in *. cbn [map flat_map fst snd]. rewrite IH. rewrite (Z.eqb_sym x a). destruct (a =? x); [|reflexivity]. reflexivity.
Qed.
Lemma path_out x y c w s ms : x <> y -> path x y c (nw w x s ms) = path x y c w ++ sel y c ms.
Proof. intros N. unfold path, nw. cbn [w_proc w_net]. rewrite put_other by auto. rewrite way_app, way_new, Z.eqb_refl, app_assoc. reflexivity. Qed.
Lemma path_in x y c w s ms : x <> y -> path y x c (nw w x s ms) = mine c (p_inbox s) ++ way y x c (w_net w).
Proof. intros N. unfold path, nw. cbn [w_proc w_net]. rewrite put_same, way_app, way_new. rewrite (proj2 (Z.eqb_neq y x)) by auto. rewrite app_nil_r. reflexivity. Qed.
Lemma V_same w x s ms c : V (nw w x s ms) x c = val c (p_descs s).
Proof. unfold V, nw. cbn [w_proc]. rewrite put_same. reflexivity. Qed.
Lemma V_other w x s ms c y : y <> x -> V (nw w x s ms) y c = V w y c.
Proof. intros N. unfold V, nw. cbn [w_proc]. rewrite put_other by exact N. reflexivity. Qed.
Lemma tgt_step h c t x i o ev : (forall t, ~ In (Called c t) ev) -> tgt (h ++ [(x, i, o, ev)]) c t <-> tgt h c t.
Proof.
  intros N. unfold tgt. rewrite of_proc_app, of_proc_one, in_app_iff. split; [|left; assumption]. intros [H|H]; [exact H|]. destruct (x =? fst c); [exfalso; exact (N t H)|destruct H].
Qed.
Lemma do_same w h x i o s ms ev c :
  val c (p_descs s) = val c (p_descs (w_proc w x)) -> (forall n f, p_serv s = Some (n, c, f) <-> p_serv (w_proc w x) = Some (n, c, f)) -> mine c (p_inbox s) = mine c (p_inbox (w_proc w x)) ->
  (forall y m, In (y, m) ms -> m_corr m <> c) -> sent_of c ev = [] -> got_of c ev = [] -> (forall t, ~ In (Called c t) ev) -> p_next (w_proc w x) <= p_next s ->
  same w h (nw w x s ms) (h ++ [(x, i, o, ev)]) c.
Proof.
  intros E1 E2 E3 E4 E5 E6 E7 E8. constructor.
  - intros y. destruct (Z.eq_dec y x) as [->|N]; [rewrite V_same; exact E1|exact (V_other _ _ _ _ _ _ N)].
  - intros y n f. unfold nw. cbn [w_proc]. destruct (Z.eq_dec y x) as [->|N]; [rewrite put_same; apply E2|rewrite put_other by exact N; reflexivity].
  - intros y. unfold nw. cbn [w_proc]. destruct (Z.eq_dec y x) as [->|N]; [rewrite put_same; exact E3|rewrite put_other by exact N; reflexivity].
  - intros a b. unfold nw. cbn [w_net]. rewrite way_app, way_new. destruct (a =? x); [|apply app_nil_r]. assert (S : sel b c ms = []). { unfold sel. clear - E4. induction ms as [|[y m] ms IH]; [reflexivity|]. cbn [flat_map fst snd]. rewrite (proj2 (corr_eqb_neq _ _) (E4 y m (or_introl eq_refl))), andb_false_r. apply IH. intros y0 m0 I. exact (E4 y0 m0 (or_intror I)). } rewrite S. apply app_nil_r.
  - intros y. rewrite sent_step, got_step, E5, E6. destruct (x =? y); rewrite !app_nil_r; auto.
  - intros t. apply tgt_step. exact E7.
  - apply incl_appl, incl_refl.
  - intros y. unfold nw. cbn [w_proc]. destruct (Z.eq_dec y x) as [->|N]; [rewrite put_same; exact E8|rewrite put_other by exact N; lia].
Qed.
Lemma touch w h x i o s ms ev c t : CInv w h c t -> (x = fst c \/ x = t) -> (forall t, ~ In (Called c t) ev) -> p_next (w_proc w x) <= p_next s ->
  (x = fst c -> forall n v, val c (p_descs s) = Some (n, v) -> v_init v = true /\ v_peer v = t) ->
  (x = t -> forall n v, val c (p_descs s) = Some (n, v) -> v_init v = false /\ v_peer v = fst c /\ p_serv s = Some (n, c, fst c)) ->
  (forall y n f, p_serv (w_proc (nw w x s ms) y) = Some (n, c, f) -> y = t /\ f = fst c /\ (forall b, In b (path t (fst c) c (nw w x s ms)) -> is_returned b = false) /\ (forall b, In b (path (fst c) t c (nw w x s ms)) -> is_request b = false)) ->
  (forall b, In b (mine c (p_inbox s)) -> In b (mine c (p_inbox (w_proc w x)))) ->
  (forall y m, In (y, m) ms -> m_corr m = c -> (x = fst c /\ y = t /\ to_sub (h ++ [(x, i, o, ev)]) c (m_body m)) \/ (x = t /\ y = fst c /\ to_init (h ++ [(x, i, o, ev)]) c t (m_body m))) ->
  shape (dup_of (V (nw w x s ms) (fst c) c)) (dup_of (V (nw w x s ms) t c)) (path (fst c) t c (nw w x s ms)) (path t (fst c) c (nw w x s ms))
    (sent (fst c) c (h ++ [(x, i, o, ev)])) (got (fst c) c (h ++ [(x, i, o, ev)])) (sent t c (h ++ [(x, i, o, ev)])) (got t c (h ++ [(x, i, o, ev)])) ->
  CInv (nw w x s ms) (h ++ [(x, i, o, ev)]) c t.
Proof.
  intros [c1 c2 c3 c4 c5 c6 c7 c8 c9 c10 c11] X NC NX A1 A2 A3 A4 A5 A6. assert (IN : incl h (h ++ [(x, i, o, ev)])) by apply incl_appl, incl_refl. constructor.
  - exact c1.
  - unfold nw. cbn [w_proc]. destruct (Z.eq_dec (fst c) x) as [E|N]; [rewrite E, put_same; rewrite E in c2; lia|rewrite put_other by exact N; exact c2].
  - intros t' T. apply c3. apply (tgt_step h c t' x i o ev NC). exact T.
  - intros n v. destruct (Z.eq_dec (fst c) x) as [E|N]; [|rewrite (V_other _ _ _ _ _ _ N); apply c4]. rewrite E, V_same. intros EV. exact (A1 (eq_sym E) n v EV).
  - intros n v. destruct (Z.eq_dec t x) as [E|N].
    + subst x. rewrite V_same. intros EV. unfold nw. cbn [w_proc]. rewrite put_same. exact (A2 eq_refl n v EV).
    + rewrite (V_other _ _ _ _ _ _ N). unfold nw. cbn [w_proc]. rewrite put_other by exact N. apply c5.
  - intros y N1 N2. assert (NYX : y <> x) by (destruct X; congruence). rewrite (V_other _ _ _ _ _ _ NYX). unfold nw. cbn [w_proc]. rewrite put_other by exact NYX. rewrite sent_step, got_step. rewrite (proj2 (Z.eqb_neq x y)) by auto. rewrite !app_nil_r. exact (c6 y N1 N2).
  - exact A3.
  - intros b. unfold nw. cbn [w_proc]. destruct (Z.eq_dec (fst c) x) as [E|N]; [rewrite E, put_same; intros B; apply (to_init_incl h _ _ _ _ IN), c8; rewrite E; exact (A4 b B)|rewrite put_other by exact N; intros B; exact (to_init_incl h _ _ _ _ IN (c8 b B))].
  - intros b. unfold nw. cbn [w_proc]. destruct (Z.eq_dec t x) as [E|N]; [rewrite E, put_same; intros B; apply (to_sub_incl h _ _ _ IN), c9; rewrite E; exact (A4 b B)|rewrite put_other by exact N; intros B; exact (to_sub_incl h _ _ _ IN (c9 b B))].
  - intros a b k. unfold nw. cbn [w_net]. rewrite in_app_iff. intros [B|B].
    + destruct (c10 a b k B) as [(E1 & E2 & L)|(E1 & E2 & L)]; [left|right]; (split; [exact E1|]; split; [exact E2|]); [exact (to_sub_incl h _ _ _ IN L)|exact (to_init_incl h _ _ _ _ IN L)].
    + apply in_map_iff in B. destruct B as ([y m] & E & B). cbn [fst snd] in E. injection E as <- <- E. assert (M : m_corr m = c) by (rewrite E; reflexivity). assert (K : m_body m = k) by (rewrite E; reflexivity). rewrite <- K. exact (A5 y m B M).
  - exact A6.
Qed.
Lemma who w h x c n v : Inv w h -> val c (p_descs (w_proc w x)) = Some (n, v) -> exists t, tgt h c t /\ CInv w h c t /\ (x = fst c \/ x = t).
Proof.
  intros IV E. destruct (i_all _ _ IV c) as [(t & T & CI)|[_ U]]; [|pose proof (u_val _ _ _ U x) as N; unfold V in N; congruence].
  exists t. split; [exact T|]. split; [exact CI|]. destruct (Z.eq_dec x (fst c)) as [A|A]; [left; exact A|]. destruct (Z.eq_dec x t) as [B|B]; [right; exact B|]. destruct (c_else _ _ _ _ CI x A B) as [N _]. unfold V in N. congruence.
Qed.
Lemma dup_val w x c n v : V w x c = Some (n, v) -> dup_of (V w x c) = Some (v_dup v).
Proof. intros ->. reflexivity. Qed.
Lemma sel_nil y c : sel y c [] = [].
Proof. reflexivity. Qed.
Lemma sel_one y c b : sel y c [(y, mk_msg c b)] = [b].
Proof. unfold sel. cbn. rewrite Z.eqb_refl, corr_eqb_refl. reflexivity. Qed.
Lemma mine_sub c a m b k : In k (mine c (a ++ b)) -> In k (mine c (a ++ m :: b)).
Proof. rewrite !mine_app. change (m :: b) with ([m] ++ b). rewrite mine_app, !in_app_iff. tauto. Qed.
Lemma mine_mid c a m b : mine c (a ++ m :: b) = mine c a ++ mine c [m] ++ mine c b.
Proof. change (m :: b) with ([m] ++ b). rewrite !mine_app. reflexivity. Qed.
Lemma mine_one c b : is_died b = false -> mine c [mk_msg c b] = [b].
Proof. intros D. rewrite mine_same by exact D. reflexivity. Qed.

Definition keeps (w : world) (h : list entry) (c : corr) (w' : world) (h' : list entry) : Prop := (exists t, tgt h' c t /\ CInv w' h' c t) \/ ((forall t, ~ tgt h' c t) /\ unused w' h' c).
(* a conversation that the one of x isn't part of *)
Lemma keep_same w h x i o s ms ev c : Inv w h ->
  val c (p_descs s) = val c (p_descs (w_proc w x)) -> (forall n f, p_serv s = Some (n, c, f) <-> p_serv (w_proc w x) = Some (n, c, f)) -> mine c (p_inbox s) = mine c (p_inbox (w_proc w x)) ->
  (forall y m, In (y, m) ms -> m_corr m <> c) -> sent_of c ev = [] -> got_of c ev = [] -> (forall t, ~ In (Called c t) ev) -> p_next (w_proc w x) <= p_next s ->
  keeps w h c (nw w x s ms) (h ++ [(x, i, o, ev)]).
Proof. intros IV E1 E2 E3 E4 E5 E6 E7 E8. apply (same_inv w h); [exact (do_same w h x i o s ms ev c E1 E2 E3 E4 E5 E6 E7 E8)|exact (i_all _ _ IV c)]. Qed.

(* a conversation is closed by x: with a message taken or not, and with Disconnect sent or not *)
Lemma keep_close w h x i o s ms ev n v l1 gone l2 : Inv w h -> at_ n (p_descs (w_proc w x)) = Some v -> let c := v_corr v in
  p_descs s = set_at n None (p_descs (w_proc w x)) -> p_serv s = p_serv (w_proc w x) -> p_next s = p_next (w_proc w x) ->
  mine c (p_inbox (w_proc w x)) = l1 ++ gone ++ l2 -> mine c (p_inbox s) = l1 ++ l2 -> (gone = [] \/ exists g, gone = [g] /\ is_request g = false) ->
  (forall t, ~ In (Called c t) ev) -> sent_of c ev = [] -> got_of c ev = [] ->
  (ms = [] \/ v_init v = true /\ ms = [(v_peer v, mk_msg c Disconnect)] /\ exists d, i = Tpdiscon d None /\ o = O_ok /\ ev = [Closed c d]) ->
  exists t, tgt (h ++ [(x, i, o, ev)]) c t /\ CInv (nw w x s ms) (h ++ [(x, i, o, ev)]) c t.
Proof.
  intros IV A c ED ES EN EM EM' G NC ES0 EG MS. pose proof (i_uniq _ _ IV x) as U. pose proof (at_val _ _ _ U A) as EV. fold c in EV. destruct (who w h x c n v IV EV) as (t & T & CI & X).
  assert (VN : val c (p_descs s) = None) by (rewrite ED, (val_close c _ n v U A), corr_eqb_refl; reflexivity).
  exists t. split; [apply tgt_step; assumption|]. pose proof CI as [c1 c2 c3 c4 c5 c6 c7 c8 c9 c10 c11]. destruct X as [X|X].
  - (* the initiator *)
    assert (XT : x <> t) by congruence. destruct (c4 n v) as [VI VP]; [unfold V; rewrite <- X; exact EV|].
    assert (PIN : path t x c (nw w x s ms) = (l1 ++ l2) ++ way t x c (w_net w)) by (rewrite path_in by exact XT; rewrite EM'; reflexivity).
    assert (PIN0 : path t x c w = l1 ++ gone ++ l2 ++ way t x c (w_net w)) by (unfold path; rewrite EM, <- !app_assoc; reflexivity).
    assert (POUT : path x t c (nw w x s ms) = path x t c w \/ path x t c (nw w x s ms) = path x t c w ++ [Disconnect]).
    { rewrite path_out by exact XT. destruct MS as [->|(_ & -> & _)]; [left; rewrite sel_nil, app_nil_r; reflexivity|right]. rewrite VP, sel_one. reflexivity. }
    assert (SH : shape None (dup_of (V w t c)) (path x t c (nw w x s ms)) (path t x c (nw w x s ms)) (sent x c h) (got x c h) (sent t c h) (got t c h)).
    { rewrite <- X in c11. apply close_a in c11. assert (D : shape None (dup_of (V w t c)) (path x t c w) (path t x c (nw w x s ms)) (sent x c h) (got x c h) (sent t c h) (got t c h)).
      { rewrite PIN, <- app_assoc. destruct G as [->|(g & -> & _)]; [rewrite PIN0 in c11; exact c11|]. rewrite PIN0 in c11. exact (drop_q _ _ _ _ _ _ _ _ _ c11). }
      destruct POUT as [->| ->]; [exact D|exact (shape_disc _ _ _ _ _ _ _ D)]. }
    assert (SN : forall y k f, p_serv (w_proc (nw w x s ms) y) = Some (k, c, f) -> y = t /\ f = fst c /\ (forall b, In b (path t (fst c) c (nw w x s ms)) -> is_returned b = false) /\ (forall b, In b (path (fst c) t c (nw w x s ms)) -> is_request b = false)).
    { intros y k f P. assert (P' : p_serv (w_proc w y) = Some (k, c, f)) by (unfold nw in P; cbn [w_proc] in P; destruct (Z.eq_dec y x) as [E|N]; [rewrite E in *; rewrite put_same in P; congruence|rewrite put_other in P by exact N; exact P]).
      destruct (c7 y k f P') as (Y & F & R1 & R2). split; [exact Y|]. split; [exact F|]. rewrite <- X in *. split.
      - intros b B. apply R1. rewrite PIN in B. rewrite PIN0. rewrite !in_app_iff in *. tauto.
      - intros b B. destruct POUT as [E|E]; rewrite E in B; [exact (R2 b B)|]. apply in_app_iff in B. destruct B as [B|[<-|[]]]; [exact (R2 b B)|reflexivity]. }
    apply touch; [exact CI|left; exact X|exact NC|lia|intros _ k u E; congruence|intros E; congruence|exact SN| |..].
    + intros b B. rewrite EM. rewrite EM' in B. rewrite !in_app_iff in *. tauto.
    + intros y m B C. left. destruct MS as [->|(_ & -> & d & -> & -> & ->)]; [destruct B|]. destruct B as [[= <- <-]|[]]. split; [exact X|]. split; [exact VP|]. cbn [m_body to_sub]. exists d. apply in_app_iff. right. left. rewrite <- X. reflexivity.
    + rewrite <- X. rewrite V_same, VN, (V_other _ _ _ _ _ _ (not_eq_sym XT)), !sent_step, !got_step, ES0, EG. destruct (x =? x), (x =? t); rewrite !app_nil_r; exact SH.
  - (* the service *)
    subst x. assert (XP : t <> fst c) by exact c1. destruct (c5 n v) as (VI & VP & PS); [exact EV|]. destruct (c7 t n (fst c) PS) as (_ & _ & R1 & R2).
    assert (MS' : ms = []) by (destruct MS as [->|(VI' & _)]; [reflexivity|congruence]). subst ms.
    assert (PIN : path (fst c) t c (nw w t s []) = (l1 ++ l2) ++ way (fst c) t c (w_net w)) by (rewrite path_in by exact XP; rewrite EM'; reflexivity).
    assert (PIN0 : path (fst c) t c w = l1 ++ gone ++ l2 ++ way (fst c) t c (w_net w)) by (unfold path; rewrite EM, <- !app_assoc; reflexivity).
    assert (POUT : path t (fst c) c (nw w t s []) = path t (fst c) c w) by (rewrite path_out by exact XP; rewrite sel_nil, app_nil_r; reflexivity).
    assert (SH : shape (dup_of (V w (fst c) c)) None (path (fst c) t c (nw w t s [])) (path t (fst c) c (nw w t s [])) (sent (fst c) c h) (got (fst c) c h) (sent t c h) (got t c h)).
    { apply close_b in c11. rewrite POUT, PIN, <- app_assoc. rewrite PIN0 in c11. destruct G as [->|(g & -> & _)]; [exact c11|]. apply (drop_p _ l1 g); [|exact c11]. intros y Y. apply R2. rewrite PIN0. exact Y. }
    apply touch; [exact CI|right; reflexivity|exact NC|lia|intros E; congruence|intros _ k u E; congruence| | |intros y m []|].
    + intros y k f P. assert (P' : p_serv (w_proc w y) = Some (k, c, f)) by (unfold nw in P; cbn [w_proc] in P; destruct (Z.eq_dec y t) as [E|N]; [rewrite E in *; rewrite put_same in P; congruence|rewrite put_other in P by exact N; exact P]).
      destruct (c7 y k f P') as (Y & F & _). split; [exact Y|]. split; [exact F|]. rewrite POUT. split; [exact R1|]. intros b B. apply R2. rewrite PIN in B. rewrite PIN0. rewrite !in_app_iff in *. tauto.
    + intros b B. rewrite EM. rewrite EM' in B. rewrite !in_app_iff in *. tauto.
    + rewrite V_same, VN, (V_other _ _ _ _ _ _ (not_eq_sym XP)), !sent_step, !got_step, ES0, EG. destruct (t =? fst c), (t =? t); rewrite !app_nil_r; exact SH.
Qed.
