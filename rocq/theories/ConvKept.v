(* The moves keep the invariant: the rest of them *)
From Coq Require Import ZArith List Bool Lia.
From Verif Require Import ConvModel ConvSpec ConvProofs ConvInv ConvShape ConvMove ConvKeep.
Import ListNotations.
Local Open Scope Z_scope.

Lemma serv_back w x s ms y k c f : p_serv s = p_serv (w_proc w x) -> p_serv (w_proc (nw w x s ms) y) = Some (k, c, f) -> p_serv (w_proc w y) = Some (k, c, f).
Proof. intros E P. unfold nw in P. cbn [w_proc] in P. destruct (Z.eq_dec y x) as [->|N]; [rewrite put_same in P; congruence|rewrite put_other in P by exact N; exact P]. Qed.
Lemma val_with w x n v d : uniq (p_descs (w_proc w x)) -> at_ n (p_descs (w_proc w x)) = Some v -> val (v_corr v) (set_at n (Some (v_with d v)) (p_descs (w_proc w x))) = Some (n, v_with d v).
Proof. intros U A. rewrite (val_same (v_corr v) _ n v (v_with d v) U A eq_refl), corr_eqb_refl. reflexivity. Qed.

Lemma keep_send w h x i o s n v d data : Inv w h -> at_ n (p_descs (w_proc w x)) = Some v -> v_dup v = DSend -> let c := v_corr v in
  s = w_descs (set_at n (Some (v_with d v)) (p_descs (w_proc w x))) (w_proc w x) -> let ms := [(v_peer v, mk_msg c (Data (invert d) data))] in let ev := [Sent c (gives (invert d)) data] in
  exists t, tgt (h ++ [(x, i, o, ev)]) c t /\ CInv (nw w x s ms) (h ++ [(x, i, o, ev)]) c t.
Proof.
  intros IV A DV c ES ms ev. pose proof (i_uniq _ _ IV x) as U. pose proof (at_val _ _ _ U A) as EV. fold c in EV. destruct (who w h x c n v IV EV) as (t & T & CI & X).
  assert (NC : forall t0, ~ In (Called c t0) ev) by (intros t0 [H|[]]; discriminate H). assert (VN : val c (p_descs s) = Some (n, v_with d v)) by (rewrite ES; exact (val_with w x n v d U A)).
  assert (PI : p_inbox s = p_inbox (w_proc w x)) by (rewrite ES; reflexivity). assert (PSV : p_serv s = p_serv (w_proc w x)) by (rewrite ES; reflexivity). assert (PN : p_next s = p_next (w_proc w x)) by (rewrite ES; reflexivity).
  assert (SO : sent_of c ev = [(gives (invert d), data)]) by (unfold ev, sent_of; cbn; rewrite corr_eqb_refl; reflexivity). assert (GO : got_of c ev = []) by reflexivity.
  exists t. split; [apply tgt_step; assumption|]. pose proof CI as [c1 c2 c3 c4 c5 c6 c7 c8 c9 c10 c11]. destruct X as [X|X].
  - assert (XT : x <> t) by congruence. destruct (c4 n v) as [VI VP]; [unfold V; rewrite <- X; exact EV|].
    assert (PIN : path t x c (nw w x s ms) = path t x c w) by (rewrite path_in by exact XT; rewrite PI; reflexivity).
    assert (POUT : path x t c (nw w x s ms) = path x t c w ++ [Data (invert d) data]) by (rewrite path_out by exact XT; unfold ms; rewrite VP, sel_one; reflexivity).
    apply touch; [exact CI|left; exact X|exact NC|lia| |intros E; congruence| | |..].
    + intros _ k u E. rewrite VN in E. injection E as <- <-. auto.
    + intros y k f P. apply (serv_back _ _ _ _ _ _ _ _ PSV) in P. destruct (c7 y k f P) as (Y & F & R1 & R2). split; [exact Y|]. split; [exact F|]. rewrite <- X in *. rewrite PIN, POUT. split; [exact R1|]. intros b B. apply in_app_iff in B. destruct B as [B|[<-|[]]]; [exact (R2 b B)|reflexivity].
    + intros b. rewrite PI. auto.
    + intros y m B C. left. destruct B as [[= <- <-]|[]]. split; [exact X|]. split; [exact VP|exact I].
    + rewrite <- X in *. rewrite V_same, VN, (V_other _ _ _ _ _ _ (not_eq_sym XT)), !sent_step, !got_step, SO, GO, PIN, POUT, Z.eqb_refl. rewrite (proj2 (Z.eqb_neq _ _) XT), !app_nil_r. cbn [dup_of]. apply send_a. unfold V in c11 at 1. rewrite EV in c11. cbn [dup_of] in c11. rewrite DV in c11. exact c11.
  - subst x. assert (XP : t <> fst c) by exact c1. destruct (c5 n v) as (VI & VP & PS); [exact EV|].
    assert (PIN : path (fst c) t c (nw w t s ms) = path (fst c) t c w) by (rewrite path_in by exact XP; rewrite PI; reflexivity).
    assert (POUT : path t (fst c) c (nw w t s ms) = path t (fst c) c w ++ [Data (invert d) data]) by (rewrite path_out by exact XP; unfold ms; rewrite VP, sel_one; reflexivity).
    apply touch; [exact CI|right; reflexivity|exact NC|lia|intros E; congruence| | | |..].
    + intros _ k u E. rewrite VN in E. injection E as <- <-. rewrite PSV. auto.
    + intros y k f P. apply (serv_back _ _ _ _ _ _ _ _ PSV) in P. destruct (c7 y k f P) as (Y & F & R1 & R2). split; [exact Y|]. split; [exact F|]. rewrite PIN, POUT. split; [|exact R2]. intros b B. apply in_app_iff in B. destruct B as [B|[<-|[]]]; [exact (R1 b B)|reflexivity].
    + intros b. rewrite PI. auto.
    + intros y m B C. right. destruct B as [[= <- <-]|[]]. split; [reflexivity|]. split; [exact VP|exact I].
    + rewrite V_same, VN, (V_other _ _ _ _ _ _ (not_eq_sym XP)), !sent_step, !got_step, SO, GO, PIN, POUT, Z.eqb_refl. rewrite (proj2 (Z.eqb_neq _ _) XP), !app_nil_r. cbn [dup_of]. apply send_b. unfold V in c11 at 2. rewrite EV in c11. cbn [dup_of] in c11. rewrite DV in c11. exact c11.
Qed.

(* nothing that the specification calls a message is before it, and the request is not in the path of one that is open *)
Lemma quiet_mine c a : (forall m, In m a -> is_message c m = false) -> (forall b, In b (mine c a) -> is_request b = false) -> dt (mine c a) = [].
Proof.
  intros N R. apply dt_none. intros b B. pose proof (R b B) as RB. apply mine_in in B. destruct B as [B D]. pose proof (N _ B) as F. unfold is_message in F. cbn [m_corr m_body] in F. rewrite corr_eqb_refl in F. cbn in F. destruct b; try discriminate; exact I.
Qed.
Lemma no_request w h c t n v b : CInv w h c t -> V w t c = Some (n, v) -> In b (path (fst c) t c w) -> is_request b = false.
Proof. intros CI E. destruct (c_sub _ _ _ _ CI n v E) as (_ & _ & PS). destruct (c_serv _ _ _ _ CI t n (fst c) PS) as (_ & _ & _ & R). apply R. Qed.
Lemma init_request w h c t b : CInv w h c t -> In b (path t (fst c) c w) -> is_request b = false.
Proof.
  intros CI B. unfold path in B. apply in_app_iff in B. destruct B as [B|B].
  - pose proof (c_inp _ _ _ _ CI b B) as L. destruct b; cbn in L; try reflexivity. contradiction.
  - apply way_in in B. destruct (c_net _ _ _ _ CI _ _ _ B) as [(E & _)|(_ & _ & L)]; [destruct (c_other _ _ _ _ CI E)|]. destruct b; cbn in L; try reflexivity. contradiction.
Qed.

Lemma keep_recv w h x i o s n v a d data b told : Inv w h -> at_ n (p_descs (w_proc w x)) = Some v -> v_dup v = DReceive -> let c := v_corr v in
  p_inbox (w_proc w x) = a ++ mk_msg c (Data d data) :: b -> (forall m, In m a -> is_message c m = false) ->
  s = w_descs (set_at n (Some (v_with d v)) (p_descs (w_proc w x))) (w_inbox (a ++ b) (w_proc w x)) -> let ev := [Got c (gives d) data told] in
  exists t, tgt (h ++ [(x, i, o, ev)]) c t /\ CInv (nw w x s []) (h ++ [(x, i, o, ev)]) c t.
Proof.
  intros IV A DV c EI NA ES ev. pose proof (i_uniq _ _ IV x) as U. pose proof (at_val _ _ _ U A) as EV. fold c in EV. destruct (who w h x c n v IV EV) as (t & T & CI & X).
  assert (NC : forall t0, ~ In (Called c t0) ev) by (intros t0 [H|[]]; discriminate H). assert (VN : val c (p_descs s) = Some (n, v_with d v)) by (rewrite ES; exact (val_with w x n v d U A)).
  assert (PI : p_inbox s = a ++ b) by (rewrite ES; reflexivity). assert (PSV : p_serv s = p_serv (w_proc w x)) by (rewrite ES; reflexivity). assert (PN : p_next s = p_next (w_proc w x)) by (rewrite ES; reflexivity).
  assert (SO : sent_of c ev = []) by reflexivity. assert (GO : got_of c ev = [(gives d, data)]) by (unfold ev, got_of; cbn; rewrite corr_eqb_refl; reflexivity).
  assert (MI : mine c (p_inbox (w_proc w x)) = mine c a ++ Data d data :: mine c b) by (rewrite EI, mine_mid, mine_one by reflexivity; reflexivity). assert (MS : mine c (p_inbox s) = mine c a ++ mine c b) by (rewrite PI, mine_app; reflexivity).
  assert (SUB : forall k, In k (mine c (p_inbox s)) -> In k (mine c (p_inbox (w_proc w x)))) by (intros k; rewrite PI, EI; apply mine_sub).
  exists t. split; [apply tgt_step; assumption|]. pose proof CI as [c1 c2 c3 c4 c5 c6 c7 c8 c9 c10 c11]. destruct X as [X|X].
  - assert (XT : x <> t) by congruence. destruct (c4 n v) as [VI VP]; [unfold V; rewrite <- X; exact EV|].
    assert (PIN0 : path t x c w = mine c a ++ Data d data :: (mine c b ++ way t x c (w_net w))) by (unfold path; rewrite MI, <- app_assoc; reflexivity).
    assert (PIN : path t x c (nw w x s []) = mine c a ++ (mine c b ++ way t x c (w_net w))) by (rewrite path_in by exact XT; rewrite MS, <- app_assoc; reflexivity).
    assert (POUT : path x t c (nw w x s []) = path x t c w) by (rewrite path_out by exact XT; rewrite sel_nil, app_nil_r; reflexivity).
    assert (Q : dt (mine c a) = []). { apply quiet_mine; [exact NA|]. intros k K. apply (init_request w h c t k CI). rewrite <- X, PIN0. apply in_app_iff. left. exact K. }
    apply touch; [exact CI|left; exact X|exact NC|lia| |intros E; congruence| |exact SUB|intros y m []|].
    + intros _ k u E. rewrite VN in E. injection E as <- <-. auto.
    + intros y k f P. apply (serv_back _ _ _ _ _ _ _ _ PSV) in P. destruct (c7 y k f P) as (Y & F & R1 & R2). split; [exact Y|]. split; [exact F|]. rewrite <- X in *. rewrite POUT. split; [|exact R2]. intros k' K. apply R1. rewrite PIN in K. rewrite PIN0. rewrite in_app_iff in *. destruct K as [K|K]; [left; exact K|right; right; exact K].
    + rewrite <- X in *. rewrite V_same, VN, (V_other _ _ _ _ _ _ (not_eq_sym XT)), !sent_step, !got_step, SO, GO, PIN, POUT, Z.eqb_refl. rewrite (proj2 (Z.eqb_neq _ _) XT), !app_nil_r. cbn [dup_of]. unfold v_with. cbn [v_dup]. apply recv_a; [exact Q|]. unfold V in c11 at 1. rewrite EV in c11. cbn [dup_of] in c11. rewrite DV, PIN0 in c11. exact c11.
  - subst x. assert (XP : t <> fst c) by exact c1. destruct (c5 n v) as (VI & VP & PS); [exact EV|].
    assert (PIN0 : path (fst c) t c w = mine c a ++ Data d data :: (mine c b ++ way (fst c) t c (w_net w))) by (unfold path; rewrite MI, <- app_assoc; reflexivity).
    assert (PIN : path (fst c) t c (nw w t s []) = mine c a ++ (mine c b ++ way (fst c) t c (w_net w))) by (rewrite path_in by exact XP; rewrite MS, <- app_assoc; reflexivity).
    assert (POUT : path t (fst c) c (nw w t s []) = path t (fst c) c w) by (rewrite path_out by exact XP; rewrite sel_nil, app_nil_r; reflexivity).
    assert (Q : dt (mine c a) = []). { apply quiet_mine; [exact NA|]. intros k K. apply (no_request w h c t n v k CI EV). rewrite PIN0. apply in_app_iff. left. exact K. }
    apply touch; [exact CI|right; reflexivity|exact NC|lia|intros E; congruence| | |exact SUB|intros y m []|].
    + intros _ k u E. rewrite VN in E. injection E as <- <-. rewrite PSV. auto.
    + intros y k f P. apply (serv_back _ _ _ _ _ _ _ _ PSV) in P. destruct (c7 y k f P) as (Y & F & R1 & R2). split; [exact Y|]. split; [exact F|]. rewrite POUT. split; [exact R1|]. intros k' K. apply R2. rewrite PIN in K. rewrite PIN0. rewrite in_app_iff in *. destruct K as [K|K]; [left; exact K|right; right; exact K].
    + rewrite V_same, VN, (V_other _ _ _ _ _ _ (not_eq_sym XP)), !sent_step, !got_step, SO, GO, PIN, POUT, Z.eqb_refl. rewrite (proj2 (Z.eqb_neq _ _) XP), !app_nil_r. cbn [dup_of]. unfold v_with. cbn [v_dup]. apply recv_b; [exact Q|]. unfold V in c11 at 2. rewrite EV in c11. cbn [dup_of] in c11. rewrite DV, PIN0 in c11. exact c11.
Qed.

(* the one with the control has nothing to receive *)
Lemma never_bad w h x n v a d data b : Inv w h -> at_ n (p_descs (w_proc w x)) = Some v -> v_dup v = DSend -> p_inbox (w_proc w x) = a ++ mk_msg (v_corr v) (Data d data) :: b -> False.
Proof.
  intros IV A DV EI. pose proof (i_uniq _ _ IV x) as U. pose proof (at_val _ _ _ U A) as EV. set (c := v_corr v) in *. destruct (who w h x c n v IV EV) as (t & T & CI & X). pose proof (sh_one _ _ _ _ _ _ _ _ (c_shape _ _ _ _ CI)) as O.
  assert (MI : mine c (p_inbox (w_proc w x)) = mine c a ++ Data d data :: mine c b) by (rewrite EI, mine_mid, mine_one by reflexivity; reflexivity). apply O. destruct X as [X|X].
  - split; [left; unfold V; rewrite <- X, EV; cbn; rewrite DV; reflexivity|]. right. unfold path. rewrite <- X, MI, dt_app, dt_app. change (dt (Data d data :: mine c b)) with ((gives d, data) :: dt (mine c b)). destruct (dt (mine c a)); discriminate.
  - subst x. split; [|left; unfold V; rewrite EV; cbn; rewrite DV; reflexivity]. right. unfold path. rewrite MI, dt_app, dt_app. change (dt (Data d data :: mine c b)) with ((gives d, data) :: dt (mine c b)). destruct (dt (mine c a)); discriminate.
Qed.

Lemma way_unused w h c x y : unused w h c -> way x y c (w_net w) = [].
Proof. intros U. destruct (way x y c (w_net w)) as [|b r] eqn:E; [reflexivity|]. exfalso. apply (u_net _ _ _ U x y b). apply way_in. rewrite E. left. reflexivity. Qed.
Lemma keep_call w h x i o t d data ds n : Inv w h -> t <> x -> let c := (x, p_next (w_proc w x)) in reserve (mk_value c t d true) (p_descs (w_proc w x)) = (ds, n) ->
  let s := w_conn (Some (n, c)) (w_descs ds (w_next (p_next (w_proc w x) + 1) (w_proc w x))) in let ms := [(t, mk_msg c (Request x (invert d) data))] in let ev := [Called c t; Sent c (gives (invert d)) data] in
  val c (p_descs (w_proc w x)) = None /\ exists t, tgt (h ++ [(x, i, o, ev)]) c t /\ CInv (nw w x s ms) (h ++ [(x, i, o, ev)]) c t.
Proof.
  intros IV NT c R s ms ev. pose proof (i_uniq _ _ IV x) as U. destruct (i_all _ _ IV c) as [(t0 & T0 & CI)|[NTG UN]]; [pose proof (c_next _ _ _ _ CI) as L; cbn in L; lia|]. pose proof UN as [u1 u2 u3 u4 u5].
  pose proof (u1 x : val (v_corr (mk_value c t d true)) _ = None) as VN0. split; [exact VN0|]. assert (VN : val c ds = Some (n, mk_value c t d true)) by (rewrite (val_reserve c _ _ _ _ U VN0 R); cbn [v_corr]; rewrite corr_eqb_refl; reflexivity).
  assert (OP : of_proc (fst c) (h ++ [(x, i, o, ev)]) = of_proc x h ++ ev) by (rewrite of_proc_app, of_proc_one; cbn [fst c]; rewrite Z.eqb_refl; reflexivity).
  assert (TT : tgt (h ++ [(x, i, o, ev)]) c t) by (unfold tgt; rewrite OP; apply in_app_iff; right; left; reflexivity).
  assert (NX : x <> t) by auto. assert (SO : sent_of c ev = [(gives (invert d), data)]) by (unfold ev, sent_of; cbn [flat_map]; rewrite corr_eqb_refl; reflexivity). assert (GO : got_of c ev = []) by reflexivity.
  assert (P1 : path x t c (nw w x s ms) = [Request x (invert d) data]) by (rewrite path_out by exact NX; unfold path; rewrite u3, (way_unused _ _ _ _ _ UN); unfold ms; rewrite sel_one; reflexivity).
  assert (P2 : path t x c (nw w x s ms) = []) by (rewrite path_in by exact NX; cbn [p_inbox s w_conn w_descs w_next]; rewrite (u3 x), (way_unused _ _ _ _ _ UN); reflexivity).
  exists t. split; [exact TT|]. constructor; cbn [fst c]; fold c.
  - exact NT.
  - unfold nw. cbn [w_proc]. rewrite put_same. cbn. lia.
  - intros t' T'. unfold tgt in T'. rewrite OP in T'. apply in_app_iff in T'. destruct T' as [T'|[T'|[T'|[]]]]; [destruct (NTG t' T')|congruence|discriminate T'].
  - intros k u. rewrite V_same. cbn [s p_descs w_conn w_descs]. rewrite VN. intros [= <- <-]. auto.
  - intros k u. rewrite (V_other _ _ _ _ _ _ NT). rewrite (u1 t). discriminate.
  - intros y N1 N2. rewrite (V_other _ _ _ _ _ _ N1). unfold nw. cbn [w_proc]. rewrite put_other by exact N1. rewrite sent_step, got_step, (u1 y), (u3 y), (proj2 (Z.eqb_neq x y)) by auto. rewrite !app_nil_r. destruct (u5 y) as [-> ->]. auto.
  - intros y k f P. exfalso. apply (u2 y k f). exact (serv_back w x s ms y k c f eq_refl P).
  - intros b. unfold nw. cbn [w_proc]. rewrite put_same. cbn [s p_inbox w_conn w_descs w_next]. rewrite (u3 x). intros [].
  - intros b. unfold nw. cbn [w_proc]. rewrite put_other by exact NT. rewrite (u3 t). intros [].
  - intros a y b. unfold nw. cbn [w_net]. rewrite in_app_iff. intros [B|[B|[]]]; [destruct (u4 _ _ _ B)|]. cbn [fst snd] in B. injection B as <- <- <-. left. split; [reflexivity|]. split; reflexivity.
  - rewrite V_same, (V_other _ _ _ _ _ _ NT), (u1 t), P1, P2, !sent_step, !got_step, SO, GO, Z.eqb_refl, (proj2 (Z.eqb_neq _ _) NX), !app_nil_r. destruct (u5 x) as [-> ->]. destruct (u5 t) as [-> ->]. cbn [s p_descs w_conn w_descs]. rewrite VN. cbn [dup_of v_dup app]. apply call_shape.
Qed.
