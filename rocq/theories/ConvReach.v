(* All that holds in a world that can be reached *)
From Coq Require Import ZArith List Bool Lia.
From Verif Require Import ConvModel ConvSpec ConvProofs ConvInv ConvShape ConvMove ConvKeep ConvKept ConvAll ConvAct ConvOpen ConvTold.
Import ListNotations.
Local Open Scope Z_scope.

Lemma step_disc p s s' o ms ev c d : step p (Tpdiscon d None) s = (s', o, ms, ev) -> ev = [Closed c d] -> exists n v, at_ n (p_descs s) = Some v /\ v_corr v = c /\ In (v_peer v, mk_msg c Disconnect) ms.
Proof.
  unfold step. destruct (p_conn s); [intros [= <- <- <- <-]; discriminate|]. unfold tpdiscon. destruct (lookup d (p_descs s)) as [[n v]|] eqn:L; [|intros [= <- <- <- <-]; discriminate]. apply lookup_some in L. destruct L as [-> A]. destruct (v_init v); [|intros [= <- <- <- <-]; discriminate].
  cbn [drop]. intros [= <- <- <- <-] [= C]. exists n, v. split; [exact A|]. split; [exact C|]. rewrite C. left. reflexivity.
Qed.
Lemma step_back p s s' o ms ev c ou user data : step p (Tpreturn ou user data false) s = (s', o, ms, ev) -> In (Back c ou user data) ev -> exists n f, p_serv s = Some (n, c, f) /\ In (f, mk_msg c (Returned (code_of ou) user data)) ms.
Proof.
  unfold step. destruct (p_conn s); [intros [= <- <- <- <-] []|]. unfold tpreturn. destruct (p_serv s) as [[[n c'] f]|]; [|intros [= <- <- <- <-] []]. destruct (at_ n (p_descs s)) as [v|]; cbn [drop]; intros [= <- <- <- <-] B; cbn [app In] in B; repeat (destruct B as [B|B]; try discriminate B); try contradiction; injection B as <-; exists n, f; (split; [reflexivity|left; reflexivity]).
Qed.
Lemma k_alike w w' h h' : (forall y, w_proc w' y = w_proc w y) -> w_net w' = w_net w -> (forall x, of_proc x h = of_proc x h') -> (forall c, disc h' c -> disc h c) -> (forall c t ou user data, back h' c t ou user data -> back h c t ou user data) -> K w h -> K w' h'.
Proof.
  intros EP EN EO ED EB [k1 k2 k3 k4]. assert (ET : forall c t, tgt h' c t <-> tgt h c t) by (intros c t; unfold tgt; rewrite EO; reflexivity).
  assert (EPA : forall x y c, path x y c w' = path x y c w) by (intros; unfold path; rewrite EP, EN; reflexivity). assert (EV : forall x c, V w' x c = V w x c) by (intros; unfold V; rewrite EP; reflexivity).
  constructor.
  - intros x v c B AB. rewrite <- EO in B. destruct (k1 x v c B AB) as (t & T). exists t. apply ET. exact T.
  - intros c t T D. rewrite EV, EPA. apply k2; [apply ET; exact T|apply ED; exact D].
  - intros c t ou user data T D. rewrite EV, EPA. apply k3; [apply ET; exact T|apply EB; exact D].
  - intros c t n T PC (d & b & O). rewrite EPA. apply (k4 c t n); [apply ET; exact T|rewrite <- EP; exact PC|]. exists d, b. rewrite EO. exact O.
Qed.
Lemma arrive_path w a b m l1 l2 x y c : w_net w = l1 ++ (a, b, m) :: l2 -> (forall m', ~ In (a, b, m') l1) -> is_died (m_body m) = false -> (m_corr m = c -> y = b -> x = a) -> path x y c (arrive w b m (l1 ++ l2)) = path x y c w.
Proof.
  intros E N1 ND W. unfold path, arrive. cbn [w_proc w_net]. rewrite E, !way_app. change ((a, b, m) :: l2) with ([(a, b, m)] ++ l2). rewrite way_app.
  assert (W1 : way x y c [(a, b, m)] = if (a =? x) && (b =? y) && corr_eqb (m_corr m) c then [m_body m] else []) by (unfold way; cbn [flat_map]; apply app_nil_r). rewrite W1. destruct (Z.eq_dec y b) as [->|NY].
  - rewrite put_same. cbn [p_inbox w_inbox]. rewrite mine_app. rewrite Z.eqb_refl, andb_true_r. destruct (corr_dec (m_corr m) c) as [C|C].
    + rewrite (W C eq_refl) in *. rewrite Z.eqb_refl, C, corr_eqb_refl. cbn [andb]. rewrite (way_none a b c l1 N1). assert (M : mine c [m] = [m_body m]) by (destruct m as [mc mb]; cbn in C; subst mc; apply mine_one; exact ND). rewrite M, <- app_assoc. reflexivity.
    + rewrite (proj2 (corr_eqb_neq _ _) C), andb_false_r, (mine_other c m [] C), app_nil_r. reflexivity.
  - rewrite put_other by exact NY. rewrite (proj2 (Z.eqb_neq b y)) by auto. rewrite andb_false_r. reflexivity.
Qed.

Lemma act_k w h a : All w h -> K w h -> ordinary a h -> K (fst (act a w)) (h ++ snd (act a w)).
Proof.
  intros [IV PO] KV OR. destruct a as [p i|a b|p c0].
  - cbn [act]. destruct (step p i (w_proc w p)) as [[[s o] ms] ev] eqn:ST. cbn [fst snd]. fold (nw w p s ms).
    assert (OP : i = Pump -> p_conn (w_proc w p) = None -> forall n v, at_ n (p_descs (w_proc w p)) = Some v -> fst (v_corr v) <> p). { intros -> PC n v A. cbn in OR. destruct (p_has _ _ _ (PO p) n v A) as [(c & E)|[B _]]; [congruence|]. exact (OR _ _ B). }
    assert (OC : forall so ro dat t f, i = Tpconnect so ro dat (Found t f) -> t <> p) by (intros so ro dat t f ->; exact OR).
    assert (HD : forall c d, i = Tpdiscon d None -> o = O_ok -> ev = [Closed c d] -> p = fst c -> exists n v, at_ n (p_descs (w_proc w p)) = Some v /\ v_corr v = c /\ In (v_peer v, mk_msg c Disconnect) ms) by (intros c d -> _ E _; exact (step_disc p _ _ _ _ _ c d ST E)).
    assert (HR : forall c ou user data, i = Tpreturn ou user data false -> o = O_ok -> In (Back c ou user data) ev -> exists n f, p_serv (w_proc w p) = Some (n, c, f) /\ In (f, mk_msg c (Returned (code_of ou) user data)) ms) by (intros c ou user data -> _ B; exact (step_back p _ _ _ _ _ c ou user data ST B)).
    apply step_move in ST. destruct ST as [M|(s1 & n & v & PC & A & ES & (ou & user & data & EE & M) & NP & ND & PS)].
    + exact (k_move w h p i o s ms ev IV KV M OC OP HD HR).
    + assert (ML : move p i o (w_proc w p) s1 [] [Closed (v_corr v) (Z.of_nat n)]) by (subst s1; exact (mv_leave p i o (w_proc w p) n v PC A)).
      assert (I1 : Inv (nw w p s1 []) (h ++ [(p, i, o, [Closed (v_corr v) (Z.of_nat n)])])) by (apply keep_move; [exact IV|exact ML|exact OC|intros ->; congruence]).
      assert (K1 : K (nw w p s1 []) (h ++ [(p, i, o, [Closed (v_corr v) (Z.of_nat n)])])) by (apply k_move; [exact IV|exact KV|exact ML|exact OC|intros ->; congruence|intros c d EI _ _ _; destruct (ND d EI)|intros c ou' user' data' _ _ [B|[]]; discriminate B]).
      assert (W1 : w_proc (nw w p s1 []) p = s1) by (unfold nw; cbn [w_proc]; apply put_same).
      assert (S1 : p_serv s1 = p_serv (w_proc w p)) by (subst s1; reflexivity).
      assert (K2 : K (nw (nw w p s1 []) p s ms) ((h ++ [(p, i, o, [Closed (v_corr v) (Z.of_nat n)])]) ++ [(p, i, o, [Back (match p_serv (w_proc w p) with Some (_, c, _) => c | None => (0, 0) end) ou user data])])).
      { apply k_move; [exact I1|exact K1|rewrite W1; exact M|exact OC|intros ->; congruence|intros c d EI _ _ _; destruct (ND d EI)|]. intros c ou' user' data' EI EO [B|[]]. rewrite W1, S1. apply (HR c ou' user' data' EI EO). rewrite EE. right. left. exact B. }
      refine (k_alike _ _ _ _ _ _ _ _ _ K2).
      * intros y. symmetry. apply nw_nw.
      * unfold nw. cbn [w_net map]. rewrite app_nil_r. reflexivity.
      * intros x. rewrite !of_proc_app, !of_proc_one, EE. destruct (p =? x); [rewrite <- app_assoc; reflexivity|rewrite !app_nil_r; reflexivity].
      * intros c (d & D). exists d. rewrite !in_app_iff in *. destruct D as [D|[D|[]]]; [left; left; exact D|]. injection D as _ EI _ _. destruct (ND _ EI).
      * intros c t ou' user' data' (ev' & D & B). apply in_app_iff in D. destruct D as [D|[D|[]]].
        -- exists ev'. rewrite !in_app_iff. auto.
        -- injection D as EP EI EO EV. rewrite <- EV, EE in B. destruct B as [B|[B|[]]]; [discriminate B|]. exists [Back c ou' user' data']. split; [apply in_app_iff; right; left; rewrite B, EP, EI, EO; reflexivity|]. left. reflexivity.
  - cbn [act]. destruct (take_net a b (w_net w)) as [[m r]|] eqn:TN; cbn [fst snd]; rewrite app_nil_r; [|exact KV]. apply take_net_split in TN. destruct TN as (l1 & l2 & E & -> & N1). fold (arrive w b m (l1 ++ l2)). set (w' := arrive w b m (l1 ++ l2)).
    destruct (net_out w h a b m l1 l2 _ IV E eq_refl) as (t0 & T0 & CI0 & AB & W).
    assert (ND : is_died (m_body m) = false). { assert (NB : In (a, b, mk_msg (m_corr m) (m_body m)) (w_net w)) by (rewrite E; apply in_app_iff; right; left; destruct m; reflexivity). destruct (c_net _ _ _ _ CI0 _ _ _ NB) as [(_ & _ & L)|(_ & _ & L)]; destruct (m_body m); cbn in L; try reflexivity; destruct L. }
    assert (DD : forall y, p_descs (w_proc w' y) = p_descs (w_proc w y)) by (intros y; unfold w', arrive; cbn [w_proc]; destruct (Z.eq_dec y b) as [->|N]; [rewrite put_same; reflexivity|rewrite put_other by exact N; reflexivity]).
    assert (DC : forall y, p_conn (w_proc w' y) = p_conn (w_proc w y)) by (intros y; unfold w', arrive; cbn [w_proc]; destruct (Z.eq_dec y b) as [->|N]; [rewrite put_same; reflexivity|rewrite put_other by exact N; reflexivity]).
    assert (P1 : forall c t, tgt h c t -> path (fst c) t c w' = path (fst c) t c w). { intros c t T. apply arrive_path with (a := a); [exact E|exact N1|exact ND|]. intros C Y. subst c b. pose proof (c_uniq _ _ _ _ CI0 t T). subst t0. destruct W as [[-> _]|[-> F]]; [reflexivity|]. pose proof (c_other _ _ _ _ CI0). congruence. }
    assert (P2 : forall c t, tgt h c t -> path t (fst c) c w' = path t (fst c) c w). { intros c t T. apply arrive_path with (a := a); [exact E|exact N1|exact ND|]. intros C Y. subst c b. pose proof (c_uniq _ _ _ _ CI0 t T). subst t0. destruct W as [[-> F]|[-> _]]; [|reflexivity]. pose proof (c_other _ _ _ _ CI0). congruence. }
    destruct KV as [k1 k2 k3 k4]. constructor; [exact k1| | |].
    + intros c t T D. unfold V. rewrite DD, (P1 c t T). apply k2; assumption.
    + intros c t ou user data T D. unfold V. rewrite DD, (P2 c t T). apply k3; assumption.
    + intros c t n T PC O. rewrite (P2 c t T). apply (k4 c t n); [exact T|rewrite <- DC; exact PC|exact O].
  - cbn [act fst snd]. rewrite app_nil_r. set (w' := mk_world _ _).
    assert (DD : forall y, p_descs (w_proc w' y) = p_descs (w_proc w y)) by (intros y; unfold w'; cbn [w_proc]; destruct (Z.eq_dec y p) as [->|N]; [rewrite put_same; reflexivity|rewrite put_other by exact N; reflexivity]).
    assert (DC : forall y, p_conn (w_proc w' y) = p_conn (w_proc w y)) by (intros y; unfold w'; cbn [w_proc]; destruct (Z.eq_dec y p) as [->|N]; [rewrite put_same; reflexivity|rewrite put_other by exact N; reflexivity]).
    assert (PP : forall x y c, path x y c w' = path x y c w) by (intros x y c; unfold path, w'; cbn [w_proc w_net]; f_equal; destruct (Z.eq_dec y p) as [->|N]; [rewrite put_same; cbn [p_inbox w_inbox]; rewrite mine_app, mine_died; apply app_nil_r|rewrite put_other by exact N; reflexivity]).
    destruct KV as [k1 k2 k3 k4]. constructor; [exact k1| | |].
    + intros c t T D. unfold V. rewrite DD, PP. apply k2; assumption.
    + intros c t ou user data T D. unfold V. rewrite DD, PP. apply k3; assumption.
    + intros c t n T PC O. rewrite PP. apply (k4 c t n); [exact T|rewrite <- DC; exact PC|exact O].
Qed.

(* the service manager *)
Definition Dies (w : world) (l : list action) : Prop := forall p c, In (mk_msg c ServerDied) (p_inbox (w_proc w p)) -> In (Died p c) l.
Lemma act_dies w h a l : Inv w h -> Dies w l -> Dies (fst (act a w)) (l ++ [a]).
Proof.
  intros IV D p c B. destruct a as [q i|x y|q c0]; cbn [act] in B.
  - destruct (step q i (w_proc w q)) as [[[s o] ms] ev] eqn:ST. cbn [fst w_proc] in B. apply in_app_iff. left. destruct (Z.eq_dec p q) as [->|N]; [|rewrite put_other in B by exact N; exact (D p c B)]. rewrite put_same in B. apply (D q c). apply step_move in ST.
    assert (MT : forall s0 s1 ms' ev', move q i o s0 s1 ms' ev' -> In (mk_msg c ServerDied) (p_inbox s1) -> In (mk_msg c ServerDied) (p_inbox s0)). { intros s0 s1 ms' ev' M Q. apply move_took in M. destruct M as [E|(a & m & b & E1 & E2 & _)]; [rewrite <- E; exact Q|]. rewrite E2 in Q. rewrite E1. rewrite in_app_iff in *. destruct Q as [Q|Q]; [left; exact Q|right; right; exact Q]. }
    destruct ST as [M|(s1 & n & v & PC & A & ES & (ou & user & data & EE & M) & _)]; [exact (MT _ _ _ _ M B)|]. pose proof (MT _ _ _ _ M B) as Q. subst s1. exact Q.
  - destruct (take_net x y (w_net w)) as [[m r]|] eqn:TN; cbn [fst w_proc] in B; apply in_app_iff; left; [|exact (D p c B)]. destruct (Z.eq_dec p y) as [->|N]; [|rewrite put_other in B by exact N; exact (D p c B)]. rewrite put_same in B. cbn [p_inbox w_inbox] in B. apply in_app_iff in B. destruct B as [B|[B|[]]]; [exact (D y c B)|]. exfalso. subst m.
    apply take_net_split in TN. destruct TN as (l1 & l2 & E & _ & _). destruct (net_out w h x y _ l1 l2 c IV E eq_refl) as (t & _ & CI & _). assert (NB : In (x, y, mk_msg c ServerDied) (w_net w)) by (rewrite E; apply in_app_iff; right; left; reflexivity). destruct (c_net _ _ _ _ CI _ _ _ NB) as [(_ & _ & L)|(_ & _ & L)]; exact L.
  - cbn [fst w_proc] in B. apply in_app_iff. destruct (Z.eq_dec p q) as [->|N]; [|rewrite put_other in B by exact N; left; exact (D p c B)]. rewrite put_same in B. cbn [p_inbox w_inbox] in B. apply in_app_iff in B. destruct B as [B|[B|[]]]; [left; exact (D q c B)|]. right. left. congruence.
Qed.

(* while it waits for the reply *)
Definition Asked (w : world) (h : list entry) : Prop := forall x n c, p_conn (w_proc w x) = Some (n, c) -> exists v data, at_ n (p_descs (w_proc w x)) = Some v /\ sent x c h = [(gives (invert (v_dup v)), data)].
Lemma conn_quiet x i s s' o ms ev n c : p_conn s = Some (n, c) -> step x i s = (s', o, ms, ev) -> p_conn s' = Some (n, c) -> p_descs s' = p_descs s /\ ev = [].
Proof.
  unfold step. intros PC. rewrite PC. destruct i; try (intros [= <- <- <- <-]; auto). unfold wait. rewrite PC. destruct (take (is_connected c) (p_inbox s)) as [[m r]|]; [intros [= <- <- <- <-]; discriminate|]. destruct sig; [intros [= <- <- <- <-]; discriminate|intros [= <- <- <- <-]; auto].
Qed.
Lemma conn_new x i s s' o ms ev n c : p_conn s = None -> step x i s = (s', o, ms, ev) -> p_conn s' = Some (n, c) -> exists t d data ds, c = (x, p_next s) /\ (exists so ro dat f, i = Tpconnect so ro dat (Found t f)) /\ reserve (mk_value c t d true) (p_descs s) = (ds, n) /\ p_descs s' = ds /\ ev = [Called c t; Sent c (gives (invert d)) data].
Proof.
  intros PC ST PC'. apply step_move in ST. destruct ST as [M|(s1 & k & v & _ & A & ES & (ou & user & data & EE & M) & _)].
  - destruct M as [| |t d data ds k PC0 CT CE R|k c' a b g PC0 EI G|k c' PC0|k v PC0 A|k v PC0 A VI EI EO|k v a m b PC0 A EI MC MB|k v d data PC0 A DV NM|k v a d data b told PC0 A DV EI NA|k v a d data b PC0 A DV EI|c' f d data r ds k PC0 PS EP EI R|m r PC0 PS EP EI RQ|k c' f ou user data ms PS A MS]; cbn [p_conn w_next w_conn w_descs w_inbox w_serv] in PC'; try congruence.
    injection PC' as <- <-. exists t, d, data, ds. auto.
  - exfalso. assert (C1 : p_conn s1 = None) by (subst s1; exact PC). destruct (move_conn _ _ _ _ _ _ _ _ _ M PC') as [Q|(t & [Q|[]])]; [congruence|discriminate Q].
Qed.
Lemma act_asked w h a : Inv w h -> Asked w h -> ordinary a h -> Asked (fst (act a w)) (h ++ snd (act a w)).
Proof.
  intros IV AK OR x n c PC. destruct a as [p i|a b|p c0]; cbn [act] in *.
  - destruct (step p i (w_proc w p)) as [[[s o] ms] ev] eqn:ST. cbn [fst snd w_proc] in *. destruct (Z.eq_dec x p) as [->|N].
    + rewrite put_same in *. rewrite sent_step, Z.eqb_refl. destruct (p_conn (w_proc w p)) as [[n0 c0]|] eqn:PC0.
      * assert (E : (n0, c0) = (n, c)). { pose proof ST as ST'. unfold step in ST'. rewrite PC0 in ST'. destruct i; try (injection ST' as <- _ _ _; congruence). unfold wait in ST'. rewrite PC0 in ST'. destruct (take (is_connected c0) (p_inbox (w_proc w p))) as [[m r]|]; [injection ST' as <- _ _ _; discriminate PC|]. destruct sig; [injection ST' as <- _ _ _; discriminate PC|]. injection ST' as <- _ _ _. congruence. }
        injection E as -> ->. destruct (conn_quiet _ _ _ _ _ _ _ _ _ PC0 ST PC) as [-> ->]. cbn [sent_of flat_map]. rewrite app_nil_r. exact (AK p n c PC0).
      * destruct (conn_new _ _ _ _ _ _ _ _ _ PC0 ST PC) as (t & d & data & ds & EC & (so & ro & dat & f & EI) & R & -> & ->). exists (mk_value c t d true), data. destruct (reserve_spec _ _ _ _ R) as [_ B]. rewrite B, Nat.eqb_refl. split; [reflexivity|]. destruct (i_all _ _ IV c) as [(t0 & T0 & CI)|[_ UN]]; [exfalso; pose proof (c_next _ _ _ _ CI) as L; rewrite EC in L; cbn in L; lia|]. destruct (u_hist _ _ _ UN p) as [-> _]. unfold sent_of. cbn [flat_map app]. rewrite corr_eqb_refl. reflexivity.
    + rewrite put_other in * by exact N. rewrite sent_step, (proj2 (Z.eqb_neq p x)) by auto. rewrite app_nil_r. exact (AK x n c PC).
  - destruct (take_net a b (w_net w)) as [[m r]|]; cbn [fst snd w_proc] in *; rewrite app_nil_r; [|exact (AK x n c PC)]. destruct (Z.eq_dec x b) as [->|N]; [rewrite put_same in *; exact (AK b n c PC)|rewrite put_other in * by exact N; exact (AK x n c PC)].
  - cbn [fst snd w_proc] in *. rewrite app_nil_r. destruct (Z.eq_dec x p) as [->|N]; [rewrite put_same in *; exact (AK p n c PC)|rewrite put_other in * by exact N; exact (AK x n c PC)].
Qed.

Record Reach (w : world) (h : list entry) (l : list action) : Prop := mk_reach { r_all : All w h; r_k : K w h; r_dies : Dies w l; r_asked : Asked w h }.
Lemma reach0 : Reach world0 [] [].
Proof.
  constructor; [exact all0| |intros p c []|intros x n c E; discriminate E]. constructor; [intros x v c []|intros c t []|intros c t ou user data []|intros c t n []].
Qed.
Lemma reach_acts l : forall w h l0, Reach w h l0 -> all_ordinary l w h -> Reach (fst (acts l w)) (h ++ snd (acts l w)) (l0 ++ l).
Proof.
  induction l as [|a l IH]; intros w h l0 [RA RK RD RS] O; cbn [acts]; [cbn; rewrite !app_nil_r; constructor; assumption|]. cbn [all_ordinary] in O. destruct O as [O1 O2].
  pose proof (act_all w h a RA O1) as A1. pose proof (act_k w h a RA RK O1) as A2. pose proof (act_dies w h a l0 (proj1 RA) RD) as A3. pose proof (act_asked w h a (proj1 RA) RS O1) as A4. destruct (act a w) as [w1 h1]. cbn [fst snd] in *.
  specialize (IH w1 (h ++ h1) (l0 ++ [a]) (mk_reach _ _ _ A1 A2 A3 A4) O2). destruct (acts l w1) as [w2 h2]. cbn [fst snd] in *. rewrite !app_assoc. rewrite <- app_assoc in IH at 1. rewrite <- (app_assoc l0 [a] l) in IH. rewrite <- (app_assoc h h1 h2). exact IH.
Qed.
Lemma reach_all l w h : acts l world0 = (w, h) -> all_ordinary l world0 [] -> Reach w h l.
Proof. intros E O. pose proof (reach_acts l world0 [] [] reach0 O) as A. rewrite E in A. exact A. Qed.
