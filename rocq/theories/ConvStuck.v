(* One side has left without a word: the other waits for ever. And: what is ordinary can be computed *)
From Coq Require Import ZArith List Bool Lia.
From Verif Require Import ConvModel ConvSpec ConvProofs ConvInv ConvShape ConvMove ConvKeep ConvKept ConvAll ConvAct ConvOpen ConvTold ConvReach ConvUse.
Import ListNotations.
Local Open Scope Z_scope.

Definition ordinaryb (a : action) (h : list entry) : bool :=
  match a with
  | Do p (Tpconnect _ _ _ (Found t _)) => negb (t =? p)
  | Do p Pump => forallb (fun y => negb (fst (snd y) =? p)) (opened p h)
  | _ => true
  end.
Fixpoint all_ordinaryb (l : list action) (w : world) (h : list entry) : bool :=
  match l with [] => true | a :: r => ordinaryb a h && let '(w1, h1) := act a w in all_ordinaryb r w1 (h ++ h1) end.
Lemma ordinaryb_ok a h : ordinaryb a h = true -> ordinary a h.
Proof.
  destruct a as [p i|a b|p c]; cbn; auto. destruct i; cbn; auto.
  - destruct l; auto. rewrite negb_true_iff, Z.eqb_neq. auto.
  - rewrite forallb_forall. intros H d c B. specialize (H (d, c) B). cbn in H. rewrite negb_true_iff, Z.eqb_neq in H. exact H.
Qed.
Lemma all_ordinaryb_ok l : forall w h, all_ordinaryb l w h = true -> all_ordinary l w h.
Proof.
  induction l as [|a l IH]; intros w h; cbn [all_ordinaryb all_ordinary]; [auto|]. rewrite andb_true_iff. intros [A B]. split; [apply ordinaryb_ok; exact A|]. destruct (act a w) as [w1 h1]. apply IH. exact B.
Qed.
Lemma runs_of l : all_ordinaryb l world0 [] = true -> runs l (fst (acts l world0)) (snd (acts l world0)).
Proof. intros O. split; [apply surjective_pairing|apply all_ordinaryb_ok; exact O]. Qed.

(* what a move sends in a conversation that is known *)
Lemma silent w h p i o s ms ev c t y b : Inv w h -> tgt h c t -> V w (fst c) c = None -> move p i o (w_proc w p) s ms ev -> p = fst c -> In (y, mk_msg c b) ms -> False.
Proof.
  intros IV T VN M E B. pose proof (the_target w h c t IV T) as CI. pose proof (i_uniq _ _ IV p) as U. assert (NO : forall n v, at_ n (p_descs (w_proc w p)) = Some v -> v_corr v <> c) by (intros n v A; subst p; exact (val_none _ _ VN n v A)).
  destruct M as [| |t0 d data ds k PC0 CT CE R|k c' a b' g PC0 EI G|k c' PC0|k v PC0 A|k v PC0 A VI EI EO|k v a m b' PC0 A EI MC MB|k v d data PC0 A DV NM|k v a d data b' told PC0 A DV EI NA|k v a d data b' PC0 A DV EI|c' f d data r ds k PC0 PS EP EI R|m r PC0 PS EP EI RQ|k c' f ou user data ms PS A MS]; try (destruct B; fail).
  - destruct B as [B|[]]. assert (EC : (p, p_next (w_proc w p)) = c) by congruence. pose proof (c_next _ _ _ _ CI) as L. rewrite <- EC in L. cbn in L. lia.
  - destruct B as [B|[]]. injection B as _ C _. exact (NO k v A C).
  - destruct B as [B|[]]. injection B as _ C _. exact (NO k v A C).
  - destruct B as [B|[]]. injection B as _ -> _. assert (Q : In (Request f d data) (mine c (p_inbox (w_proc w p)))) by (rewrite EI, mine_same by reflexivity; left; reflexivity). rewrite E in Q. exact (c_inp _ _ _ _ CI _ Q).
  - destruct MS as [-> | ->]; [destruct B|]. destruct B as [B|[]]. injection B as _ -> _. destruct (c_serv _ _ _ _ CI p k f PS) as (Q & _). pose proof (c_other _ _ _ _ CI). congruence.
Qed.
Lemma gone_move w h p i o s ms ev c t : Inv w h -> tgt h c t -> V w (fst c) c = None -> path (fst c) t c w = [] -> move p i o (w_proc w p) s ms ev -> (forall so ro dat t f, i = Tpconnect so ro dat (Found t f) -> t <> p) ->
  V (nw w p s ms) (fst c) c = None /\ path (fst c) t c (nw w p s ms) = [].
Proof.
  intros IV T VN PN M OC. pose proof (the_target w h c t IV T) as CI. pose proof (c_other _ _ _ _ CI) as NO. split.
  - destruct (Z.eq_dec (fst c) p) as [E|E]; [|rewrite (V_other _ _ _ _ _ _ E); exact VN]. destruct (V (nw w p s ms) (fst c) c) as [[n v]|] eqn:EV; [|reflexivity]. exfalso. rewrite E, V_same in EV.
    destruct (val_new p i o _ s ms ev c (i_uniq _ _ IV p) (i_conn _ _ IV p) (fun t0 B => fresh_call w h p i o s ms ev c t0 IV OC M B) (fun d b E0 B => fresh_invoke w h p i o s ms ev c d b IV M E0 B) M) as [Q|[(t' & Q)|(_ & f & d & data & r & EI)]].
    + congruence.
    + apply Q. unfold V in VN. rewrite E in VN. exact VN.
    + destruct M as [| |t0 d data ds k PC0 CT CE R|k c' a b' g PC0 EI G|k c' PC0|k u PC0 A|k u PC0 A VI EI EO|k u a m b' PC0 A EI MC MB|k u d data PC0 A DV NM|k u a d data b' told PC0 A DV EI NA|k u a d data b' PC0 A DV EI|c' f d data r ds k PC0 PS EP EI R|m r PC0 PS EP EI RQ|k c' f ou user data ms PS A MS]; cbn [In] in Q; repeat (destruct Q as [Q|Q]; try discriminate Q); try contradiction. assert (EC : (p, p_next (w_proc w p)) = c) by congruence. pose proof (c_next _ _ _ _ CI) as L. rewrite <- EC in L. cbn in L. lia.
    + assert (Q : In (Request f d data) (mine c (p_inbox (w_proc w p)))) by (rewrite EI, mine_same by reflexivity; left; reflexivity). rewrite <- E in Q. exact (c_inp _ _ _ _ CI _ Q).
  - destruct (path (fst c) t c (nw w p s ms)) as [|b r] eqn:EP; [reflexivity|]. exfalso. assert (B : In b (path (fst c) t c (nw w p s ms))) by (rewrite EP; left; reflexivity). destruct (path_new w p i o s ms ev c (fst c) t b (not_eq_sym NO) M B) as [Q|[Q1 Q2]]; [rewrite PN in Q; destruct Q|]. apply sel_in in Q2. exact (silent w h p i o s ms ev c t t b IV T VN M (eq_sym Q1) Q2).
Qed.
Definition Gone (w : world) (h : list entry) (c : corr) (t : Z) : Prop := tgt h c t /\ V w (fst c) c = None /\ path (fst c) t c w = [] /\ ~ In (mk_msg c ServerDied) (p_inbox (w_proc w t)).
Lemma gone_act w h a c t : All w h -> ordinary a h -> Gone w h c t -> a <> Died t c -> Gone (fst (act a w)) (h ++ snd (act a w)) c t.
Proof.
  intros [IV PO] OR (T & VN & PN & DN) ND. assert (T' : tgt (h ++ snd (act a w)) c t) by (unfold tgt; rewrite of_proc_app; apply in_app_iff; left; exact T). split; [exact T'|]. pose proof (the_target w h c t IV T) as CI. pose proof (c_other _ _ _ _ CI) as NO.
  destruct a as [p i|a b|p c0]; cbn [act].
  - destruct (step p i (w_proc w p)) as [[[s o] ms] ev] eqn:ST. cbn [fst snd]. fold (nw w p s ms).
    assert (OC : forall so ro dat t f, i = Tpconnect so ro dat (Found t f) -> t <> p) by (intros so ro dat t0 f ->; exact OR).
    assert (MT : forall s0 s1 ms' ev', move p i o s0 s1 ms' ev' -> In (mk_msg c ServerDied) (p_inbox s1) -> In (mk_msg c ServerDied) (p_inbox s0)). { intros s0 s1 ms' ev' M Q. apply move_took in M. destruct M as [E|(a & m & b & E1 & E2 & _)]; [rewrite <- E; exact Q|]. rewrite E2 in Q. rewrite E1. rewrite in_app_iff in *. destruct Q as [Q|Q]; [left; exact Q|right; right; exact Q]. }
    assert (DD : (In (mk_msg c ServerDied) (p_inbox s) -> In (mk_msg c ServerDied) (p_inbox (w_proc w p))) -> ~ In (mk_msg c ServerDied) (p_inbox (w_proc (nw w p s ms) t))). { intros Q B. apply DN. unfold nw in B. cbn [w_proc] in B. destruct (Z.eq_dec t p) as [->|E]; [rewrite put_same in B; exact (Q B)|rewrite put_other in B by exact E; exact B]. }
    apply step_move in ST. destruct ST as [M|(s1 & n & v & PC & A & ES & (ou & user & data & EE & M) & NP & _)].
    + destruct (gone_move w h p i o s ms ev c t IV T VN PN M OC) as [G1 G2]. split; [exact G1|]. split; [exact G2|]. apply DD. exact (MT _ _ _ _ M).
    + assert (ML : move p i o (w_proc w p) s1 [] [Closed (v_corr v) (Z.of_nat n)]) by (subst s1; exact (mv_leave p i o (w_proc w p) n v PC A)).
      assert (I1 : Inv (nw w p s1 []) (h ++ [(p, i, o, [Closed (v_corr v) (Z.of_nat n)])])) by (apply keep_move; [exact IV|exact ML|exact OC|intros ->; congruence]).
      destruct (gone_move w h p i o s1 [] _ c t IV T VN PN ML OC) as [G1 G2]. assert (W1 : w_proc (nw w p s1 []) p = s1) by (unfold nw; cbn [w_proc]; apply put_same).
      assert (T1 : tgt (h ++ [(p, i, o, [Closed (v_corr v) (Z.of_nat n)])]) c t) by (unfold tgt; rewrite of_proc_app; apply in_app_iff; left; exact T).
      destruct (gone_move (nw w p s1 []) _ p i o s ms _ c t I1 T1 G1 G2 ltac:(rewrite W1; exact M) OC) as [G3 G4].
      split; [unfold V in *; rewrite <- (nw_nw w p s1 s ms); exact G3|]. split.
      * assert (NN : w_net (nw (nw w p s1 []) p s ms) = w_net (nw w p s ms)) by (unfold nw; cbn [w_net map]; rewrite app_nil_r; reflexivity). unfold path in *. rewrite <- NN, <- (nw_nw w p s1 s ms). exact G4.
      * apply DD. intros B. pose proof (MT _ _ _ _ M B) as Q. subst s1. exact Q.
  - destruct (take_net a b (w_net w)) as [[m r]|] eqn:TN; cbn [fst snd]; [|auto]. apply take_net_split in TN. destruct TN as (l1 & l2 & E & -> & N1). fold (arrive w b m (l1 ++ l2)).
    destruct (net_out w h a b m l1 l2 _ IV E eq_refl) as (t0 & T0 & CI0 & AB & W).
    assert (NDI : is_died (m_body m) = false). { assert (NB : In (a, b, mk_msg (m_corr m) (m_body m)) (w_net w)) by (rewrite E; apply in_app_iff; right; left; destruct m; reflexivity). destruct (c_net _ _ _ _ CI0 _ _ _ NB) as [(_ & _ & L)|(_ & _ & L)]; destruct (m_body m); cbn in L; try reflexivity; destruct L. }
    split; [|split].
    + unfold V, arrive in *. cbn [w_proc]. destruct (Z.eq_dec (fst c) b) as [<-|N]; [rewrite put_same; exact VN|rewrite put_other by exact N; exact VN].
    + rewrite (arrive_path w a b m l1 l2 (fst c) t c E N1 NDI); [exact PN|]. intros C Y. subst c b. pose proof (c_uniq _ _ _ _ CI0 t T). subst t0. destruct W as [[-> _]|[-> F]]; [reflexivity|]. congruence.
    + intros B. apply DN. unfold arrive in B. cbn [w_proc] in B. destruct (Z.eq_dec t b) as [->|N]; [|rewrite put_other in B by exact N; exact B]. rewrite put_same in B. cbn [p_inbox w_inbox] in B. apply in_app_iff in B. destruct B as [B|[B|[]]]; [exact B|]. rewrite B in NDI. discriminate NDI.
  - cbn [fst snd]. split; [|split].
    + unfold V in *. cbn [w_proc]. destruct (Z.eq_dec (fst c) p) as [<-|N]; [rewrite put_same; exact VN|rewrite put_other by exact N; exact VN].
    + unfold path in *. cbn [w_proc w_net]. destruct (Z.eq_dec t p) as [->|N]; [rewrite put_same; cbn [p_inbox w_inbox]; rewrite mine_app, mine_died, app_nil_r; exact PN|rewrite put_other by exact N; exact PN].
    + intros B. apply DN. cbn [w_proc] in B. destruct (Z.eq_dec t p) as [->|N]; [|rewrite put_other in B by exact N; exact B]. rewrite put_same in B. cbn [p_inbox w_inbox] in B. apply in_app_iff in B. destruct B as [B|[B|[]]]; [exact B|]. injection B as <-. destruct (ND eq_refl).
Qed.
Lemma gone_acts l : forall w h c t, All w h -> all_ordinary l w h -> Gone w h c t -> ~ In (Died t c) l -> Gone (fst (acts l w)) (h ++ snd (acts l w)) c t.
Proof.
  induction l as [|a l IH]; intros w h c t A O G N; cbn [acts]; [cbn; rewrite app_nil_r; exact G|]. cbn [all_ordinary] in O. destruct O as [O1 O2]. assert (NA : a <> Died t c) by (intros ->; apply N; left; reflexivity). pose proof (gone_act w h a c t A O1 G NA) as G1. pose proof (act_all w h a A O1) as A1. destruct (act a w) as [w1 h1]. cbn [fst snd] in *.
  specialize (IH w1 (h ++ h1) c t A1 O2 G1 (fun B => N (or_intror B))). destruct (acts l w1) as [w2 h2]. cbn [fst snd] in *. rewrite app_assoc. exact IH.
Qed.
Lemma acts_app l1 l2 w : acts (l1 ++ l2) w = (fst (acts l2 (fst (acts l1 w))), snd (acts l1 w) ++ snd (acts l2 (fst (acts l1 w)))).
Proof.
  revert w. induction l1 as [|a l1 IH]; intros w; cbn [acts app]; [cbn; apply surjective_pairing|]. destruct (act a w) as [w1 h1]. rewrite IH. destruct (acts l1 w1) as [w2 h2]. cbn [fst snd]. rewrite app_assoc. reflexivity.
Qed.
Lemma ordinary_app l1 : forall l2 w h, all_ordinary l1 w h -> all_ordinary l2 (fst (acts l1 w)) (h ++ snd (acts l1 w)) -> all_ordinary (l1 ++ l2) w h.
Proof.
  induction l1 as [|a l1 IH]; intros l2 w h O1 O2; cbn [acts app all_ordinary] in *; [cbn in O2; rewrite app_nil_r in O2; exact O2|]. destruct O1 as [Oa O1]. split; [exact Oa|]. destruct (act a w) as [w1 h1]. apply IH; [exact O1|]. destruct (acts l1 w1) as [w2 h2]. cbn [fst snd] in *. rewrite <- app_assoc. exact O2.
Qed.
(* the conversation is closed at the one that connected, nothing is on its way: the service waits for ever *)
Lemma use_stuck l w h c t : runs l w h -> connected (fst c) t c h -> (forall d, ~ In (d, c) (opened (fst c) h)) -> p_conn (w_proc w (fst c)) = None -> path (fst c) t c w = [] -> ~ In (Died t c) l ->
  forall l' w' h' d mm o ev w'', acts l' w = (w', h') -> all_ordinary l' w h -> ~ In (Died t c) l' -> In (d, c) (opened t (h ++ h')) -> control t c (h ++ h') = false -> asks t (Tprecv d false false mm) w' o ev w'' -> o = O_waits \/ o = O_ignored.
Proof.
  intros R CN NO PC PN ND l' w' h' d mm o ev w'' EA O N2 OP CT A. pose proof (runs_reach _ _ _ R) as RR. destruct (called_own l w h _ c t R CN) as [_ T]. pose proof (r_all _ _ _ RR) as AL.
  assert (G : Gone w h c t). { split; [exact T|]. split; [|split; [exact PN|intros B; apply ND; exact (died_why l w h t c R B)]]. destruct (V w (fst c) c) as [[n v]|] eqn:EV; [|reflexivity]. exfalso. destruct AL as [IV PO]. destruct (val_at _ _ _ _ EV) as [AT VC]. destruct (p_has _ _ _ (PO (fst c)) n v AT) as [(c' & E)|[B _]]; [congruence|]. rewrite VC in B. exact (NO _ B). }
  pose proof (gone_acts l' w h c t AL O G N2) as G'. rewrite EA in G'. cbn [fst snd] in G'. destruct G' as (T' & VN' & PN' & DN').
  assert (R' : runs (l ++ l') w' (h ++ h')). { destruct R as [E0 O0]. split; [rewrite acts_app, E0; cbn [fst snd]; rewrite EA; reflexivity|]. apply ordinary_app; [exact O0|]. rewrite E0. exact O. }
  destruct (asks_step _ _ _ _ _ _ A) as (s & ms & ST & ->). unfold step in ST. destruct (p_conn (w_proc w' t)) eqn:PC'; [injection ST as _ <- _ _; right; reflexivity|]. destruct (open_at _ w' _ t d c (runs_reach _ _ _ R') OP PC') as (n & v & -> & AT & VC & CT' & L & EV). unfold tprecv in ST. rewrite L in ST. rewrite CT in CT'. destruct (v_dup v); [discriminate CT'|]. rewrite VC in ST.
  assert (MN : forall m, In m (p_inbox (w_proc w' t)) -> is_message c m = false). { intros m B. destruct (is_message c m) eqn:IM; [|reflexivity]. exfalso. unfold is_message in IM. rewrite andb_true_iff, corr_eqb_eq in IM. destruct IM as [MC MB]. destruct m as [mc mb]. cbn in MC, MB. subst mc. destruct (is_died mb) eqn:D; [destruct mb; try discriminate D; exact (DN' B)|]. pose proof (in_path w' (fst c) t c mb _ B eq_refl D) as Q. rewrite PN' in Q. destruct Q. }
  assert (T1 : take (is_disconnect c) (p_inbox (w_proc w' t)) = None). { destruct (take (is_disconnect c) (p_inbox (w_proc w' t))) as [[m r]|] eqn:T1; [|reflexivity]. apply take_split in T1. destruct T1 as (a & b & EI & _ & F & _). apply is_disc_body in F. destruct F as [F1 F2]. assert (Q : is_message c m = false) by (apply MN; rewrite EI; apply in_app_iff; right; left; reflexivity). unfold is_message in Q. rewrite F1, F2, corr_eqb_refl in Q. discriminate Q. }
  assert (T2 : take (is_message c) (p_inbox (w_proc w' t)) = None). { destruct (take (is_message c) (p_inbox (w_proc w' t))) as [[m r]|] eqn:T2; [|reflexivity]. apply take_split in T2. destruct T2 as (a & b & EI & _ & F & _). rewrite MN in F; [discriminate F|rewrite EI; apply in_app_iff; right; left; reflexivity]. }
  rewrite T1, T2 in ST. injection ST as _ <- _ _. left. reflexivity.
Qed.
