(* The end of a conversation is told: the message is on its way, or has arrived, until it is taken *)
From Coq Require Import ZArith List Bool Lia.
From Verif Require Import ConvModel ConvSpec ConvProofs ConvInv ConvShape ConvMove ConvKeep ConvKept ConvAll ConvAct ConvOpen.
Import ListNotations.
Local Open Scope Z_scope.

Definition about (v : event) (c : corr) : Prop :=
  match v with Called c' _ => c' = c | Opened c' _ _ => c' = c | Sent c' _ _ => c' = c | Got c' _ _ _ => c' = c | Closed c' _ => c' = c | Back c' _ _ _ => c' = c | Lost _ => False end.
Definition disc (h : list entry) (c : corr) : Prop := exists d, In (fst c, Tpdiscon d None, O_ok, [Closed c d]) h.
Definition back (h : list entry) (c : corr) (t : Z) (ou : outcome) (user data : Z) : Prop := exists ev, In (t, Tpreturn ou user data false, O_ok, ev) h /\ In (Back c ou user data) ev.
Definition is_open (h : list entry) (c : corr) (t : Z) : Prop := exists d b, In (Opened c d b) (of_proc t h).
Definition req (l : list body) : Prop := exists r, In r l /\ is_request r = true.
Record K (w : world) (h : list entry) : Prop := mk_k {
  k_used : forall x v c, In v (of_proc x h) -> about v c -> exists t, tgt h c t;
  k_dis : forall c t, tgt h c t -> disc h c -> V w t c <> None \/ req (path (fst c) t c w) -> In Disconnect (path (fst c) t c w);
  k_ret : forall c t ou user data, tgt h c t -> back h c t ou user data -> V w (fst c) c <> None -> In (Returned (code_of ou) user data) (path t (fst c) c w);
  k_con : forall c t n, tgt h c t -> p_conn (w_proc w (fst c)) = Some (n, c) -> is_open h c t -> In Connected (path t (fst c) c w) }.

(* what is taken from the inbox *)
Definition took (i : input) (s s' : proc) (m : msg) (a : list msg) : Prop :=
  match m_body m with
  | Disconnect | Returned _ _ _ => (exists n v, at_ n (p_descs s) = Some v /\ v_corr v = m_corr m /\ p_descs s' = set_at n None (p_descs s)) \/ (p_serv s = None /\ p_conn s = None /\ i = Pump /\ a = [])
  | Connected => (p_conn s' = None)
  | _ => True
  end.
Lemma move_took x i o s s' ms ev : move x i o s s' ms ev -> p_inbox s' = p_inbox s \/ exists a m b, p_inbox s = a ++ m :: b /\ p_inbox s' = a ++ b /\ took i s s' m a.
Proof.
  intros M. destruct M as [| |t d data ds n PC CT CE R|n c a b g PC EI G|n c PC|n v PC A|n v PC A VI EI EO|n v a m b PC A EI MC MB|n v d data PC A DV NM|n v a d data b told PC A DV EI NA|n v a d data b PC A DV EI|c f d data r ds n PC PS EP EI R|m r PC PS EP EI RQ|n c f ou user data ms PS A MS]; try (left; reflexivity).
  - right. exists a, (mk_msg c Connected), b. split; [exact EI|]. split; reflexivity.
  - right. exists a, m, b. split; [exact EI|]. split; [reflexivity|]. unfold took. destruct (m_body m); try exact I; [contradiction|left; exists n, v; auto|left; exists n, v; auto].
  - right. exists a, (mk_msg (v_corr v) (Data d data)), b. split; [exact EI|]. split; [reflexivity|exact I].
  - right. exists a, (mk_msg (v_corr v) (Data d data)), b. split; [exact EI|]. split; [reflexivity|exact I].
  - right. exists [], (mk_msg c (Request f d data)), r. split; [exact EI|]. split; [reflexivity|exact I].
  - right. exists [], m, r. split; [exact EI|]. split; [reflexivity|]. unfold took. destruct (m_body m); try exact I; [exact PC|right; auto|right; auto].
Qed.
Lemma path_stays w p i o s ms ev c x y b : x <> y -> move p i o (w_proc w p) s ms ev -> In b (path x y c w) -> In b (path x y c (nw w p s ms)) \/ (y = p /\ exists a r, p_inbox (w_proc w p) = a ++ mk_msg c b :: r /\ p_inbox s = a ++ r /\ took i (w_proc w p) s (mk_msg c b) a).
Proof.
  intros N M B. destruct (Z.eq_dec y p) as [->|NY].
  - rewrite path_in by auto. apply move_took in M. unfold path in B. apply in_app_iff in B. destruct B as [B|B]; [|left; apply in_app_iff; right; exact B]. destruct M as [E|(a & m & r & E1 & E2 & T)]; [left; apply in_app_iff; left; rewrite E; exact B|].
    rewrite E1, mine_mid in B. rewrite !in_app_iff in B. destruct B as [B|[B|B]]; [left| |left].
    + apply in_app_iff. left. rewrite E2, mine_app. apply in_app_iff. left. exact B.
    + right. split; [reflexivity|]. apply mine_in in B. destruct B as [[<-|[]] _]. exists a, r. auto.
    + apply in_app_iff. left. rewrite E2, mine_app. apply in_app_iff. right. exact B.
  - left. unfold path, nw in *. cbn [w_proc w_net]. rewrite put_other by exact NY. rewrite way_app, !in_app_iff in *. tauto.
Qed.
Lemma path_new w p i o s ms ev c x y b : x <> y -> move p i o (w_proc w p) s ms ev -> In b (path x y c (nw w p s ms)) -> In b (path x y c w) \/ (x = p /\ In b (sel y c ms)).
Proof.
  intros N M B. destruct (Z.eq_dec y p) as [->|NY].
  - rewrite path_in in B by auto. left. unfold path. rewrite in_app_iff in *. destruct B as [B|B]; [left|right; exact B]. apply move_took in M. destruct M as [E|(a & m & r & E1 & E2 & T)]; [rewrite <- E; exact B|]. rewrite E2 in B. rewrite E1. apply mine_sub. exact B.
  - unfold path, nw in *. cbn [w_proc w_net] in *. rewrite put_other in B by exact NY. rewrite way_app, way_new, !in_app_iff in *. destruct B as [B|[B|B]]; [left; left; exact B|left; right; exact B|]. destruct (x =? p) eqn:E; [|destruct B]. apply Z.eqb_eq in E. subst x. right. auto.
Qed.
Lemma sel_in y c ms b : In b (sel y c ms) -> In (y, mk_msg c b) ms.
Proof. unfold sel. intros B. apply in_flat_map in B. destruct B as ([z m] & I & B). cbn [fst snd] in B. destruct (z =? y) eqn:E1; [|destruct B]. destruct (corr_eqb (m_corr m) c) eqn:E2; [|destruct B]. apply Z.eqb_eq in E1. apply corr_eqb_eq in E2. destruct B as [<-|[]]. subst. destruct m; exact I. Qed.
Lemma in_sel y c ms b : In (y, mk_msg c b) ms -> In b (sel y c ms).
Proof. intros I. unfold sel. apply in_flat_map. exists (y, mk_msg c b). split; [exact I|]. cbn. rewrite Z.eqb_refl, corr_eqb_refl. left. reflexivity. Qed.
Lemma path_sent w p s ms c y b : p <> y -> In (y, mk_msg c b) ms -> In b (path p y c (nw w p s ms)).
Proof. intros N I. rewrite path_out by exact N. apply in_app_iff. right. apply in_sel. exact I. Qed.

(* a value that is new: tpconnect, or the service is called *)
Lemma val_new x i o s s' ms ev c : uniq (p_descs s) -> conn_ok s -> (forall t, In (Called c t) ev -> val c (p_descs s) = None) -> (forall d b, p_conn s = None -> In (Opened c d b) ev -> val c (p_descs s) = None) -> move x i o s s' ms ev -> val c (p_descs s') <> None ->
  val c (p_descs s) <> None \/ (exists t, In (Called c t) ev) \/ (i = Pump /\ exists f d data r, p_inbox s = mk_msg c (Request f d data) :: r).
Proof.
  intros U IC NC NI M. destruct M as [| |t d data ds n PC CT CE R|n c' a b g PC EI G|n c' PC|n v PC A|n v PC A VI EI EO|n v a m b PC A EI MC MB|n v d data PC A DV NM|n v a d data b told PC A DV EI NA|n v a d data b PC A DV EI|c' f d data r ds n PC PS EP EI R|m r PC PS EP EI RQ|n c' f ou user data ms PS A MS]; cbn [p_descs w_next w_conn w_descs w_inbox w_serv].
  - auto.
  - auto.
  - intros N. destruct (corr_dec (x, p_next s) c) as [E|E]; [right; left; exists t; left; rewrite E; reflexivity|]. left. intros Q. apply N. destruct (val c ds) as [[k u]|] eqn:EV; [|reflexivity]. exfalso. apply val_at in EV. destruct EV as [A B]. destruct (reserve_spec _ _ _ _ R) as [_ S0]. rewrite S0 in A. destruct (k =? n)%nat; [injection A as <-; exact (E B)|]. exact (val_none _ _ Q k u A B).
  - auto.
  - destruct (IC n c' PC) as (v & A & _). rewrite (val_close c _ n v U A). destruct (corr_eqb (v_corr v) c); [congruence|auto].
  - rewrite (val_close c _ n v U A). destruct (corr_eqb (v_corr v) c); [congruence|auto].
  - rewrite (val_close c _ n v U A). destruct (corr_eqb (v_corr v) c); [congruence|auto].
  - rewrite (val_close c _ n v U A). destruct (corr_eqb (v_corr v) c); [congruence|auto].
  - intros N. left. rewrite (val_same c _ n v (v_with d v) U A eq_refl) in N. destruct (corr_eqb (v_corr v) c) eqn:E; [|exact N]. apply corr_eqb_eq in E. rewrite <- E, (at_val _ _ _ U A). discriminate.
  - intros N. left. rewrite (val_same c _ n v (v_with d v) U A eq_refl) in N. destruct (corr_eqb (v_corr v) c) eqn:E; [|exact N]. apply corr_eqb_eq in E. rewrite <- E, (at_val _ _ _ U A). discriminate.
  - rewrite (val_close c _ n v U A). destruct (corr_eqb (v_corr v) c); [congruence|auto].
  - intros N. destruct (corr_dec c' c) as [E|E]; [right; right; split; [exact EP|]; exists f, d, data, r; rewrite <- E; exact EI|]. left. intros Q. apply N. destruct (val c ds) as [[k u]|] eqn:EV; [|reflexivity]. exfalso. apply val_at in EV. destruct EV as [A B]. destruct (reserve_spec _ _ _ _ R) as [_ S0]. rewrite S0 in A. destruct (k =? n)%nat; [injection A as <-; exact (E B)|]. exact (val_none _ _ Q k u A B).
  - auto.
  - auto.
Qed.
Lemma move_conn x i o s s' ms ev n c : move x i o s s' ms ev -> p_conn s' = Some (n, c) -> p_conn s = Some (n, c) \/ exists t, In (Called c t) ev.
Proof.
  intros M. destruct M as [| |t d data ds k PC CT CE R|k c' a b g PC EI G|k c' PC|k v PC A|k v PC A VI EI EO|k v a m b PC A EI MC MB|k v d data PC A DV NM|k v a d data b told PC A DV EI NA|k v a d data b PC A DV EI|c' f d data r ds k PC PS EP EI R|m r PC PS EP EI RQ|k c' f ou user data ms PS A MS]; cbn [p_conn w_next w_conn w_descs w_inbox w_serv]; auto; try discriminate.
  intros [= <- <-]. right. exists t. left. reflexivity.
Qed.
Lemma move_used w h p i o s ms ev v c : Inv w h -> move p i o (w_proc w p) s ms ev -> In v ev -> about v c -> (exists t, tgt h c t) \/ exists t, p = fst c /\ In (Called c t) ev.
Proof.
  intros IV M B AB. pose proof (i_uniq _ _ IV p) as U. assert (OLD : forall n u, at_ n (p_descs (w_proc w p)) = Some u -> v_corr u = c -> exists t, tgt h c t) by (intros n u A <-; destruct (who w h p _ n u IV (at_val _ _ _ U A)) as (t & T & _); exists t; exact T).
  destruct M as [| |t d data ds n PC CT CE R|n c' a b g PC EI G|n c' PC|n u PC A|n u PC A VI EI EO|n u a m b PC A EI MC MB|n u d data PC A DV NM|n u a d data b told PC A DV EI NA|n u a d data b PC A DV EI|c' f d data r ds n PC PS EP EI R|m r PC PS EP EI RQ|n c' f ou user data ms PS A MS].
  - destruct B.
  - destruct B.
  - right. exists t. destruct B as [<-|[<-|[]]]; cbn in AB; subst c; split; try reflexivity; left; reflexivity.
  - left. destruct B as [<-|[]]. cbn in AB. subst c'. destruct (i_conn _ _ IV p n c PC) as (u & A & VC & _). exact (OLD n u A VC).
  - destruct B.
  - left. destruct B as [<-|[]]. exact (OLD n u A AB).
  - left. destruct B as [<-|[]]. exact (OLD n u A AB).
  - left. destruct B as [<-|[]]. exact (OLD n u A AB).
  - left. destruct B as [<-|[]]. exact (OLD n u A AB).
  - left. destruct B as [<-|[]]. exact (OLD n u A AB).
  - left. destruct B as [<-|[<-|[]]]; exact (OLD n u A AB).
  - left. assert (E : c' = c) by (destruct B as [<-|[<-|[]]]; exact AB). subst c'. destruct (i_all _ _ IV c) as [(t & T & _)|[_ UN]]; [exists t; exact T|]. pose proof (u_in _ _ _ UN p) as Q. rewrite EI, mine_same in Q by reflexivity. discriminate Q.
  - destruct B as [<-|[]]. destruct AB.
  - left. destruct B as [<-|[]]. cbn in AB. subst c'. destruct (i_all _ _ IV c) as [(t & T & _)|[_ UN]]; [exists t; exact T|]. destruct (u_serv _ _ _ UN _ _ _ PS).
Qed.
Lemma the_target w h c t : Inv w h -> tgt h c t -> CInv w h c t.
Proof. intros IV T. destruct (i_all _ _ IV c) as [(t' & T' & CI)|[N _]]; [rewrite (c_uniq _ _ _ _ CI t T); exact CI|destruct (N t T)]. Qed.
Lemma move_call_req p i o s s' ms ev c y f d data : move p i o s s' ms ev -> In (y, mk_msg c (Request f d data)) ms -> In (Called c y) ev.
Proof.
  intros M B. destruct M as [| |t d' data' ds n PC CT CE R|n c' a b g PC EI G|n c' PC|n u PC A|n u PC A VI EI EO|n u a m b PC A EI MC MB|n u d' data' PC A DV NM|n u a d' data' b told PC A DV EI NA|n u a d' data' b PC A DV EI|c' f' d' data' r ds n PC PS EP EI R|m r PC PS EP EI RQ|n c' f' ou user data' ms PS A MS]; try (destruct B as [B|[]]; discriminate B); try (destruct B; fail).
  - destruct B as [B|[]]. injection B as <- <- <- <- <-. left. reflexivity.
  - destruct MS as [-> | ->]; [destruct B|]. destruct B as [B|[]]. discriminate B.
Qed.

Lemma k_move w h p i o s ms ev : Inv w h -> K w h -> move p i o (w_proc w p) s ms ev ->
  (forall so ro dat t f, i = Tpconnect so ro dat (Found t f) -> t <> p) -> (i = Pump -> p_conn (w_proc w p) = None -> forall n v, at_ n (p_descs (w_proc w p)) = Some v -> fst (v_corr v) <> p) ->
  (forall c d, i = Tpdiscon d None -> o = O_ok -> ev = [Closed c d] -> p = fst c -> exists n v, at_ n (p_descs (w_proc w p)) = Some v /\ v_corr v = c /\ In (v_peer v, mk_msg c Disconnect) ms) ->
  (forall c ou user data, i = Tpreturn ou user data false -> o = O_ok -> In (Back c ou user data) ev -> exists n f, p_serv (w_proc w p) = Some (n, c, f) /\ In (f, mk_msg c (Returned (code_of ou) user data)) ms) ->
  K (nw w p s ms) (h ++ [(p, i, o, ev)]).
Proof.
  intros IV KV M OC OP HD HR. pose proof (i_uniq _ _ IV p) as U. pose proof (i_conn _ _ IV p) as IC. pose proof KV as [k1 k2 k3 k4].
  assert (FC : forall c t, In (Called c t) ev -> val c (p_descs (w_proc w p)) = None) by (intros c t B; exact (fresh_call w h p i o s ms ev c t IV OC M B)).
  assert (FI : forall c d b, p_conn (w_proc w p) = None -> In (Opened c d b) ev -> val c (p_descs (w_proc w p)) = None) by (intros c d b E B; exact (fresh_invoke w h p i o s ms ev c d b IV M E B)).
  assert (OF : forall x v, In v (of_proc x (h ++ [(p, i, o, ev)])) -> In v (of_proc x h) \/ (x = p /\ In v ev)). { intros x v. rewrite of_proc_app, of_proc_one, in_app_iff. intros [B|B]; [left; exact B|right]. destruct (p =? x) eqn:E; [apply Z.eqb_eq in E; auto|destruct B]. }
  assert (FO : forall x v, In v (of_proc x h) -> In v (of_proc x (h ++ [(p, i, o, ev)]))) by (intros x v B; rewrite of_proc_app; apply in_app_iff; left; exact B).
  (* a fresh one has nothing *)
  assert (FR : forall c t, In (Called c t) ev -> forall t', ~ tgt h c t'). { intros c t B t' T. destruct M as [| |t0 d data ds n PC CT CE R|n c' a b g PC EI G|n c' PC|n u PC A|n u PC A VI EI EO|n u a m b PC A EI MC MB|n u d data PC A DV NM|n u a d data b told PC A DV EI NA|n u a d data b PC A DV EI|c' f d data r ds n PC PS EP EI R|m r PC PS EP EI RQ|n c' f ou user data ms PS A MS]; cbn [In] in B; repeat (destruct B as [B|B]; try discriminate B); try contradiction. injection B as <- <-. pose proof (c_next _ _ _ _ (the_target w h _ t' IV T)) as L. cbn in L. lia. }
  assert (TO : forall c t, tgt (h ++ [(p, i, o, ev)]) c t -> tgt h c t \/ (p = fst c /\ In (Called c t) ev)). { intros c t T. unfold tgt in T. destruct (OF _ _ T) as [B|[E B]]; [left; exact B|right; auto]. }
  assert (NU : forall c t, In (Called c t) ev -> forall x v, In v (of_proc x h) -> ~ about v c) by (intros c t B x v Q AB; destruct (k1 x v c Q AB) as (t' & T); exact (FR c t B t' T)).
  constructor.
  - intros x v c B AB. destruct (OF x v B) as [B'|[-> B']].
    + destruct (k1 x v c B' AB) as (t & T). exists t. apply FO. exact T.
    + destruct (move_used w h p i o s ms ev v c IV M B' AB) as [(t & T)|(t & E & Q)]; exists t; [apply FO; exact T|]. unfold tgt. rewrite <- E, of_proc_app, of_proc_one, Z.eqb_refl. apply in_app_iff. right. exact Q.
  - intros c t T (d & D) PR. destruct (TO c t T) as [T0|[E Q]].
    2:{ exfalso. apply in_app_iff in D. destruct D as [D|[D|[]]].
        - apply (NU c t Q (fst c) (Closed c d)); [|reflexivity]. unfold of_proc. apply in_flat_map. exists (fst c, Tpdiscon d None, O_ok, [Closed c d]). split; [exact D|]. rewrite Z.eqb_refl. left. reflexivity.
        - injection D as _ _ _ ->. destruct Q as [Q|[]]. discriminate Q. }
    pose proof (the_target w h c t IV T0) as CI. pose proof (c_other _ _ _ _ CI) as NO. apply in_app_iff in D. destruct D as [D|[D|[]]].
    + assert (PR0 : V w t c <> None \/ req (path (fst c) t c w)).
      { destruct PR as [PV|(r & R1 & R2)].
        - destruct (Z.eq_dec t p) as [E|E]; [|rewrite (V_other _ _ _ _ _ _ E) in PV; left; exact PV]. subst t. rewrite V_same in PV. destruct (val_new p i o _ s ms ev c U IC (FC c) (FI c) M PV) as [Q|[(t' & Q)|(_ & f & d' & data & r & EI)]]; [left; exact Q|exfalso; exact (FR c t' Q p T0)|]. right. exists (Request f d' data). split; [|reflexivity]. unfold path. rewrite EI, mine_same by reflexivity. left. reflexivity.
        - destruct (path_new w p i o s ms ev c (fst c) t r (not_eq_sym NO) M R1) as [B|[E B]]; [right; exists r; auto|]. exfalso. apply sel_in in B. destruct r; try discriminate R2. apply (FR c t (move_call_req _ _ _ _ _ _ _ _ _ _ _ _ M B) t T0). }
      pose proof (k2 c t T0 (ex_intro _ d D) PR0) as B. destruct (path_stays w p i o s ms ev c (fst c) t _ (not_eq_sym NO) M B) as [Q|(E & a & r & EI & EI' & TK)]; [exact Q|]. exfalso. subst t. cbn [took m_body m_corr] in TK. destruct TK as [(n & v & A & VC & ED)|(PS & PC & EP & ->)].
      * assert (EV : V w p c = Some (n, v)) by (unfold V; rewrite <- VC; exact (at_val _ _ _ U A)). destruct PR as [PV|(k & K1 & K2)].
        -- apply PV. rewrite V_same, ED, (val_close c _ n v U A), VC, corr_eqb_refl. reflexivity.
        -- destruct (path_new w p i o s ms ev c (fst c) p k (not_eq_sym NO) M K1) as [Q|[E _]]; [|congruence]. pose proof (no_request w h c p n v k CI EV Q). congruence.
      * destruct PR0 as [PV|(k & K1 & K2)].
        -- destruct (V w p c) as [[n v]|] eqn:EV; [|congruence]. destruct (c_sub _ _ _ _ CI n v EV) as (_ & _ & Q). congruence.
        -- destruct (in_split _ _ K1) as (l1 & l2 & EL). destruct (sh_req _ _ _ _ _ _ _ _ (c_shape _ _ _ _ CI) l1 k l2 EL K2) as (_ & -> & _). unfold path in EL. cbn [app] in EI. rewrite EI, mine_same in EL by reflexivity. injection EL as EL _. subst k. discriminate K2.
    + injection D as EP EI EO EE. destruct (HD c d EI EO EE EP) as (n & v & A & VC & B). subst p. assert (EV : V w (fst c) c = Some (n, v)) by (unfold V; rewrite <- VC at 1; exact (at_val _ _ _ U A)). destruct (c_init _ _ _ _ CI n v EV) as [_ VP]. rewrite VP in B. apply path_sent; [auto|exact B].
  - intros c t ou user data T (ev' & D & BK) PV. destruct (TO c t T) as [T0|[E Q]].
    2:{ exfalso. apply in_app_iff in D. destruct D as [D|[D|[]]].
        - apply (NU c t Q t (Back c ou user data)); [|reflexivity]. unfold of_proc. apply in_flat_map. exists (t, Tpreturn ou user data false, O_ok, ev'). split; [exact D|]. rewrite Z.eqb_refl. exact BK.
        - injection D as EP EI _ _. assert (CE : exists so ro dat f, i = Tpconnect so ro dat (Found t f)). { clear - M Q. destruct M as [| |t0 d data0 ds n PC CT CE R|n c' a b g PC EI G|n c' PC|n u PC A|n u PC A VI EI EO|n u a m b PC A EI MC MB|n u d data0 PC A DV NM|n u a d data0 b told PC A DV EI NA|n u a d data0 b PC A DV EI|c' f d data0 r ds n PC PS EP EI R|m r PC PS EP EI RQ|n c' f ou' user' data0 ms PS A MS]; cbn [In] in Q; repeat (destruct Q as [Q|Q]; try discriminate Q); try contradiction. injection Q as _ <-. exact CE. } destruct CE as (so & ro & dat & f & CE). congruence. }
    pose proof (the_target w h c t IV T0) as CI. pose proof (c_other _ _ _ _ CI) as NO. apply in_app_iff in D. destruct D as [D|[D|[]]].
    + assert (PV0 : V w (fst c) c <> None). { destruct (Z.eq_dec (fst c) p) as [E|E]; [|rewrite (V_other _ _ _ _ _ _ E) in PV; exact PV]. subst p. rewrite V_same in PV. destruct (val_new _ i o _ s ms ev c U IC (FC c) (FI c) M PV) as [Q|[(t' & Q)|(_ & f & d' & data' & r & EI)]]; [exact Q|exfalso; exact (FR c t' Q t T0)|]. exfalso. assert (B : In (Request f d' data') (mine c (p_inbox (w_proc w (fst c))))) by (rewrite EI, mine_same by reflexivity; left; reflexivity). exact (c_inp _ _ _ _ CI _ B). }
      pose proof (k3 c t ou user data T0 (ex_intro _ ev' (conj D BK)) PV0) as B. destruct (path_stays w p i o s ms ev c t (fst c) _ NO M B) as [Q|(E & a & r & EI & EI' & TK)]; [exact Q|]. exfalso. cbn [took m_body m_corr] in TK. destruct TK as [(n & v & A & VC & ED)|(PS & PC & EP & ->)].
      * apply PV. rewrite E, V_same, ED, (val_close c _ n v U A), VC, corr_eqb_refl. reflexivity.
      * destruct (V w (fst c) c) as [[n v]|] eqn:EV; [|congruence]. unfold V in EV. rewrite E in EV. destruct (val_at _ _ _ _ EV) as [A VC]. apply (OP EP PC n v A). congruence.
    + injection D as EP EI EO EE. subst t ev'. destruct (HR c ou user data EI EO BK) as (n & f & PS & B). destruct (c_serv _ _ _ _ CI p n f PS) as (_ & -> & _). apply path_sent; [exact NO|exact B].
  - intros c t n T PC (d & b & OPN). destruct (TO c t T) as [T0|[E Q]].
    2:{ exfalso. destruct (OF _ _ OPN) as [D|[EP D]]; [apply (NU c t Q t _ D); reflexivity|]. destruct M as [| |t0 d' data0 ds k PC' CT CE R|k c' a b' g PC' EI G|k c' PC'|k u PC' A|k u PC' A VI EI EO|k u a m b' PC' A EI MC MB|k u d' data0 PC' A DV NM|k u a d' data0 b' told PC' A DV EI NA|k u a d' data0 b' PC' A DV EI|c' f d' data0 r ds k PC' PS EP' EI R|m r PC' PS EP' EI RQ|k c' f ou' user' data0 ms PS A MS]; cbn [In] in Q, D; repeat (destruct Q as [Q|Q]; try discriminate Q); try contradiction. destruct D as [D|[D|[]]]; discriminate D. }
    pose proof (the_target w h c t IV T0) as CI. pose proof (c_other _ _ _ _ CI) as NO.
    assert (PC0 : p_conn (w_proc w (fst c)) = Some (n, c)). { unfold nw in PC. cbn [w_proc] in PC. destruct (Z.eq_dec (fst c) p) as [E|E]; [|rewrite put_other in PC by exact E; exact PC]. rewrite E, put_same in PC. destruct (move_conn _ _ _ _ _ _ _ _ _ M PC) as [Q|(t' & Q)]; [rewrite E; exact Q|]. exfalso. exact (FR c t' Q t T0). }
    destruct (OF _ _ OPN) as [D|[EP D]].
    + pose proof (k4 c t n T0 PC0 (ex_intro _ d (ex_intro _ b D))) as B. destruct (path_stays w p i o s ms ev c t (fst c) _ NO M B) as [Q|(E & a & r & EI & EI' & TK)]; [exact Q|]. exfalso. cbn [took m_body] in TK. unfold nw in PC. cbn [w_proc] in PC. rewrite E, put_same in PC. congruence.
    + subst t. destruct M as [| |t0 d' data0 ds k PC' CT CE R|k c' a b' g PC' EI G|k c' PC'|k u PC' A|k u PC' A VI EI EO|k u a m b' PC' A EI MC MB|k u d' data0 PC' A DV NM|k u a d' data0 b' told PC' A DV EI NA|k u a d' data0 b' PC' A DV EI|c' f d' data0 r ds k PC' PS EP' EI R|m r PC' PS EP' EI RQ|k c' f ou' user' data0 ms PS A MS]; cbn [In] in D; repeat (destruct D as [D|D]; try discriminate D); try contradiction.
      * injection D as <- _ _. destruct (IC k c' PC') as (v & A & VC & VI). assert (EV : V w p c' = Some (k, v)) by (unfold V; rewrite <- VC; exact (at_val _ _ _ U A)). destruct (c_sub _ _ _ _ CI k v EV) as (Q & _). congruence.
      * injection D as <- _ _. assert (B : In (Request f d' data0) (mine c' (p_inbox (w_proc w p)))) by (rewrite EI, mine_same by reflexivity; left; reflexivity). pose proof (c_int _ _ _ _ CI _ B) as Q. cbn in Q. subst f. apply path_sent; [exact NO|left; reflexivity].
Qed.
