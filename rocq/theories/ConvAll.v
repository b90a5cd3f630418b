(* Every action keeps the invariant *)
From Coq Require Import ZArith List Bool Lia.
From Verif Require Import ConvModel ConvSpec ConvProofs ConvInv ConvShape ConvMove ConvKeep ConvKept.
Import ListNotations.
Local Open Scope Z_scope.

Definition conn_ok (s : proc) : Prop := forall n c, p_conn s = Some (n, c) -> exists v, at_ n (p_descs s) = Some v /\ v_corr v = c /\ v_init v = true.
Lemma build w h x s ms h' : Inv w h -> uniq (p_descs s) -> conn_ok s -> (forall c, keeps w h c (nw w x s ms) h') -> Inv (nw w x s ms) h'.
Proof.
  intros IV U C K. constructor.
  - intros y. unfold nw. cbn [w_proc]. destruct (Z.eq_dec y x) as [->|N]; [rewrite put_same; exact U|rewrite put_other by exact N; apply (i_uniq _ _ IV)].
  - intros y n c. unfold nw. cbn [w_proc]. destruct (Z.eq_dec y x) as [->|N]; [rewrite put_same; apply C|rewrite put_other by exact N; apply (i_conn _ _ IV)].
  - exact K.
Qed.
(* all but c *)
Lemma rest w h x i o s ms ev c : Inv w h ->
  (forall c', c' <> c -> val c' (p_descs s) = val c' (p_descs (w_proc w x))) -> (forall c', c' <> c -> forall n f, p_serv s = Some (n, c', f) <-> p_serv (w_proc w x) = Some (n, c', f)) ->
  (forall c', c' <> c -> mine c' (p_inbox s) = mine c' (p_inbox (w_proc w x))) -> (forall y m, In (y, m) ms -> m_corr m = c) ->
  (forall v, In v ev -> match v with Called c' _ | Sent c' _ _ | Got c' _ _ _ => c' = c | _ => True end) -> p_next (w_proc w x) <= p_next s ->
  (exists t, tgt (h ++ [(x, i, o, ev)]) c t /\ CInv (nw w x s ms) (h ++ [(x, i, o, ev)]) c t) -> forall c', keeps w h c' (nw w x s ms) (h ++ [(x, i, o, ev)]).
Proof.
  intros IV E1 E2 E3 E4 E5 E6 K c'. destruct (corr_dec c' c) as [->|N]; [left; exact K|]. apply keep_same; auto.
  - intros y m B C. rewrite (E4 y m B) in C. congruence.
  - unfold sent_of. clear - E5 N. induction ev as [|v ev IH]; [reflexivity|]. cbn [flat_map]. rewrite IH by (intros u B; exact (E5 u (or_intror B))). pose proof (E5 v (or_introl eq_refl)) as Q. destruct v; try reflexivity. rewrite (proj2 (corr_eqb_neq _ _)) by congruence. reflexivity.
  - unfold got_of. clear - E5 N. induction ev as [|v ev IH]; [reflexivity|]. cbn [flat_map]. rewrite IH by (intros u B; exact (E5 u (or_intror B))). pose proof (E5 v (or_introl eq_refl)) as Q. destruct v; try reflexivity. rewrite (proj2 (corr_eqb_neq _ _)) by congruence. reflexivity.
  - intros t B. pose proof (E5 _ B) as Q. cbn in Q. congruence.
Qed.
Lemma mine_others c c' a m b : m_corr m = c -> c' <> c -> mine c' (a ++ b) = mine c' (a ++ m :: b).
Proof. intros E N. rewrite mine_mid, mine_app, (mine_other c' m []) by congruence. reflexivity. Qed.
Lemma val_others c' l n v : uniq l -> at_ n l = Some v -> c' <> v_corr v -> val c' (set_at n None l) = val c' l.
Proof. intros U A N. rewrite (val_close c' l n v U A), (proj2 (corr_eqb_neq _ _)) by auto. reflexivity. Qed.
Lemma val_with_others c' l n v d : uniq l -> at_ n l = Some v -> c' <> v_corr v -> val c' (set_at n (Some (v_with d v)) l) = val c' l.
Proof. intros U A N. rewrite (val_same c' l n v (v_with d v) U A eq_refl), (proj2 (corr_eqb_neq _ _)) by auto. reflexivity. Qed.
Lemma conn_none s : p_conn s = None -> conn_ok s.
Proof. intros E n c F. congruence. Qed.

(* the reply of the service *)
Lemma keep_connected w h x i o n c a b g : Inv w h -> p_conn (w_proc w x) = Some (n, c) -> p_inbox (w_proc w x) = a ++ mk_msg c Connected :: b ->
  let s := w_conn None (w_inbox (a ++ b) (w_proc w x)) in let ev := [Opened c (Z.of_nat n) g] in
  exists t, tgt (h ++ [(x, i, o, ev)]) c t /\ CInv (nw w x s []) (h ++ [(x, i, o, ev)]) c t.
Proof.
  intros IV PC EI s ev. destruct (i_conn _ _ IV x n c PC) as (v & A & VC & VI). pose proof (i_uniq _ _ IV x) as U. pose proof (at_val _ _ _ U A) as EV. rewrite VC in EV. destruct (who w h x c n v IV EV) as (t & T & CI & X).
  assert (NC : forall t0, ~ In (Called c t0) ev) by (intros t0 [H|[]]; discriminate H). exists t. split; [apply tgt_step; assumption|]. pose proof CI as [c1 c2 c3 c4 c5 c6 c7 c8 c9 c10 c11].
  destruct X as [X|X]; [|subst x; destruct (c5 n v EV) as (VI' & _); congruence]. assert (XT : x <> t) by congruence.
  assert (MI : mine c (p_inbox (w_proc w x)) = mine c a ++ Connected :: mine c b) by (rewrite EI, mine_mid, mine_one by reflexivity; reflexivity). assert (MS : mine c (p_inbox s) = mine c a ++ mine c b) by (unfold s; cbn [p_inbox w_conn w_inbox]; apply mine_app).
  assert (PIN0 : path t x c w = mine c a ++ Connected :: (mine c b ++ way t x c (w_net w))) by (unfold path; rewrite MI, <- app_assoc; reflexivity).
  assert (PIN : path t x c (nw w x s []) = mine c a ++ (mine c b ++ way t x c (w_net w))) by (rewrite path_in by exact XT; rewrite MS, <- app_assoc; reflexivity).
  assert (POUT : path x t c (nw w x s []) = path x t c w) by (rewrite path_out by exact XT; rewrite sel_nil, app_nil_r; reflexivity).
  apply touch; [exact CI|left; exact X|exact NC|cbn; lia| |intros E; congruence| | |intros y m []|].
  - intros _ k u E. apply (c4 k u). unfold V. rewrite <- X. exact E.
  - intros y k f P. apply (serv_back w x s [] y k c f eq_refl) in P. destruct (c7 y k f P) as (Y & F & R1 & R2). split; [exact Y|]. split; [exact F|]. rewrite <- X in *. rewrite POUT. split; [|exact R2]. intros k' K. apply R1. rewrite PIN in K. rewrite PIN0. rewrite in_app_iff in *. destruct K as [K|K]; [left; exact K|right; right; exact K].
  - intros k. rewrite MI, MS, !in_app_iff. intros [K|K]; [left; exact K|right; right; exact K].
  - rewrite <- X in *. rewrite V_same, (V_other _ _ _ _ _ _ (not_eq_sym XT)), !sent_step, !got_step, PIN, POUT. change (sent_of c ev) with (@nil (bool * Z)). change (got_of c ev) with (@nil (bool * Z)). destruct (x =? x), (x =? t); rewrite !app_nil_r; (apply conn_q; rewrite <- PIN0; exact c11).
Qed.

(* the service is called *)
Lemma keep_invoke w h x i o c f d data r ds n : Inv w h -> p_serv (w_proc w x) = None -> p_inbox (w_proc w x) = mk_msg c (Request f d data) :: r -> reserve (mk_value c f d false) (p_descs (w_proc w x)) = (ds, n) ->
  let s := w_serv (Some (n, c, f)) (w_descs ds (w_inbox r (w_proc w x))) in let ms := [(f, mk_msg c Connected)] in let ev := [Opened c (Z.of_nat n) (gives d); Got c (gives d) data true] in
  val c (p_descs (w_proc w x)) = None /\ exists t, tgt (h ++ [(x, i, o, ev)]) c t /\ CInv (nw w x s ms) (h ++ [(x, i, o, ev)]) c t.
Proof.
  intros IV PS EI R s ms ev. pose proof (i_uniq _ _ IV x) as U. assert (MI : mine c (p_inbox (w_proc w x)) = Request f d data :: mine c r) by (rewrite EI; apply mine_same; reflexivity).
  destruct (i_all _ _ IV c) as [(t & T & CI)|[_ UN]]; [|pose proof (u_in _ _ _ UN x) as N; rewrite MI in N; discriminate N]. pose proof CI as [c1 c2 c3 c4 c5 c6 c7 c8 c9 c10 c11].
  assert (NC : forall t0, ~ In (Called c t0) ev) by (intros t0 [H|[H|[]]]; discriminate H).
  assert (IN : In (Request f d data) (mine c (p_inbox (w_proc w x)))) by (rewrite MI; left; reflexivity).
  destruct (Z.eq_dec x (fst c)) as [E|NX]; [rewrite E in IN; destruct (c8 _ IN)|]. destruct (Z.eq_dec x t) as [E|NT]; [|destruct (c6 x NX NT) as (_ & E & _); rewrite E in MI; discriminate MI]. subst t.
  pose proof (c9 _ IN) as F. cbn [to_sub] in F. subst f. assert (VN0 : V w x c = None) by (destruct (V w x c) as [[k u]|]; [destruct (c5 k u eq_refl) as (_ & _ & Q); congruence|reflexivity]).
  split; [exact VN0|]. exists x. split; [apply tgt_step; assumption|].
  assert (VN : val c ds = Some (n, mk_value c (fst c) d false)) by (rewrite (val_reserve c _ _ _ _ U (VN0 : val (v_corr (mk_value c (fst c) d false)) _ = None) R); cbn [v_corr]; rewrite corr_eqb_refl; reflexivity).
  assert (PIN0 : path (fst c) x c w = Request (fst c) d data :: (mine c r ++ way (fst c) x c (w_net w))) by (unfold path; rewrite MI; reflexivity).
  assert (PIN : path (fst c) x c (nw w x s ms) = mine c r ++ way (fst c) x c (w_net w)) by (rewrite path_in by exact NX; reflexivity).
  assert (POUT : path x (fst c) c (nw w x s ms) = path x (fst c) c w ++ [Connected]) by (rewrite path_out by exact NX; unfold ms; rewrite sel_one; reflexivity).
  rewrite VN0, PIN0 in c11. cbn [dup_of] in c11. destruct (invoke_b _ _ _ _ _ _ _ _ _ _ c11) as (SH & NR & QN & SQ).
  apply touch; [exact CI|right; reflexivity|exact NC|cbn; lia|intros E; congruence| | | |..].
  - intros _ k u E. cbn [s p_descs w_serv w_descs] in E. rewrite VN in E. injection E as <- <-. auto.
  - intros y k g P. unfold nw in P. cbn [w_proc] in P. destruct (Z.eq_dec y x) as [->|N].
    + rewrite put_same in P. cbn [s p_serv w_serv] in P. injection P as <- <-. split; [reflexivity|]. split; [reflexivity|]. rewrite PIN, POUT, QN. split; [|exact NR]. intros b [<-|[]]. reflexivity.
    + rewrite put_other in P by exact N. destruct (c7 y k g P) as (Y & _). congruence.
  - intros b B. rewrite MI. right. exact B.
  - intros y m B C. right. destruct B as [[= <- <-]|[]]. split; [reflexivity|]. split; [reflexivity|]. exists (Z.of_nat n), (gives d). rewrite of_proc_app, of_proc_one, Z.eqb_refl. apply in_app_iff. right. left. reflexivity.
  - rewrite V_same, (V_other _ _ _ _ _ _ (not_eq_sym NX)), !sent_step, !got_step, PIN, POUT. cbn [s p_descs w_serv w_descs]. rewrite VN. change (sent_of c ev) with (@nil (bool * Z)). assert (GO : got_of c ev = [(gives d, data)]) by (unfold ev, got_of; cbn; rewrite corr_eqb_refl; reflexivity). rewrite GO, Z.eqb_refl, (proj2 (Z.eqb_neq _ _) NX), !app_nil_r. exact SH.
Qed.

(* the message pump takes a message that isn't a request *)
Lemma keep_lost w h x i o m r : Inv w h -> p_serv (w_proc w x) = None -> (forall n v, at_ n (p_descs (w_proc w x)) = Some v -> fst (v_corr v) <> x) ->
  p_inbox (w_proc w x) = m :: r -> is_request (m_body m) = false -> let s := w_inbox r (w_proc w x) in let ev := [Lost m] in let c := m_corr m in
  keeps w h c (nw w x s []) (h ++ [(x, i, o, ev)]).
Proof.
  intros IV PS NI EI RQ s ev c. assert (NC : forall t0, ~ In (Called c t0) ev) by (intros t0 [H|[]]; discriminate H). destruct (is_died (m_body m)) eqn:DI.
  { apply keep_same; auto; try reflexivity. unfold s. cbn [p_inbox w_inbox]. rewrite EI. destruct m as [mc mb]. cbn [m_body] in DI. destruct mb; try discriminate DI. symmetry. apply mine_died. }
  assert (MI : mine c (p_inbox (w_proc w x)) = m_body m :: mine c r) by (rewrite EI; destruct m as [mc mb]; apply mine_same; exact DI).
  destruct (i_all _ _ IV c) as [(t & T & CI)|[_ UN]]; [|pose proof (u_in _ _ _ UN x) as N; rewrite MI in N; discriminate N]. pose proof CI as [c1 c2 c3 c4 c5 c6 c7 c8 c9 c10 c11].
  left. exists t. split; [apply tgt_step; assumption|].
  assert (IN : In (m_body m) (mine c (p_inbox (w_proc w x)))) by (rewrite MI; left; reflexivity).
  assert (SUB : forall b, In b (mine c (p_inbox s)) -> In b (mine c (p_inbox (w_proc w x)))) by (intros b B; rewrite MI; right; exact B).
  destruct (Z.eq_dec x (fst c)) as [E|NX].
  - assert (XT : x <> t) by congruence. assert (VN0 : V w x c = None). { destruct (V w x c) as [[k u]|] eqn:EV; [|reflexivity]. destruct (val_at _ _ _ _ EV) as [A B]. exfalso. apply (NI k u A). rewrite B. auto. }
    assert (PIN0 : path t x c w = [] ++ m_body m :: (mine c r ++ way t x c (w_net w))) by (unfold path; rewrite MI; reflexivity).
    assert (PIN : path t x c (nw w x s []) = [] ++ (mine c r ++ way t x c (w_net w))) by (rewrite path_in by exact XT; reflexivity).
    assert (POUT : path x t c (nw w x s []) = path x t c w) by (rewrite path_out by exact XT; rewrite sel_nil, app_nil_r; reflexivity).
    apply touch; [exact CI|left; exact E|exact NC|cbn; lia| |intros Q; congruence| |exact SUB|intros y k []|].
    + intros _ k u Q. unfold V in VN0. cbn [s p_descs w_inbox] in Q. congruence.
    + intros y k f P. apply (serv_back w x s [] y k c f eq_refl) in P. destruct (c7 y k f P) as (Y & F & R1 & R2). split; [exact Y|]. split; [exact F|]. rewrite <- E in *. rewrite POUT. split; [|exact R2]. intros k' K. apply R1. rewrite PIN in K. rewrite PIN0. right. exact K.
    + rewrite <- E in *. rewrite V_same, (V_other _ _ _ _ _ _ (not_eq_sym XT)), !sent_step, !got_step, PIN, POUT. change (sent_of c ev) with (@nil (bool * Z)). change (got_of c ev) with (@nil (bool * Z)). cbn [s p_descs w_inbox]. fold (V w x c). rewrite VN0 in *. rewrite PIN0 in c11. apply drop_q in c11. destruct (x =? x), (x =? t); rewrite !app_nil_r; exact c11.
  - destruct (Z.eq_dec x t) as [E|NT]; [|destruct (c6 x NX NT) as (_ & E & _); rewrite E in MI; discriminate MI]. subst t.
    assert (VN0 : V w x c = None) by (destruct (V w x c) as [[k u]|]; [destruct (c5 k u eq_refl) as (_ & _ & Q); congruence|reflexivity]).
    assert (PIN0 : path (fst c) x c w = [] ++ m_body m :: (mine c r ++ way (fst c) x c (w_net w))) by (unfold path; rewrite MI; reflexivity).
    assert (PIN : path (fst c) x c (nw w x s []) = [] ++ (mine c r ++ way (fst c) x c (w_net w))) by (rewrite path_in by exact NX; reflexivity).
    assert (POUT : path x (fst c) c (nw w x s []) = path x (fst c) c w) by (rewrite path_out by exact NX; rewrite sel_nil, app_nil_r; reflexivity).
    assert (NR : forall y, In y (path (fst c) x c w) -> is_request y = false). { intros y Y. destruct (is_request y) eqn:RY; [|reflexivity]. exfalso. destruct (in_split _ _ Y) as (l1 & l2 & EL). destruct (sh_req _ _ _ _ _ _ _ _ c11 l1 y l2 EL RY) as (_ & -> & _). rewrite PIN0 in EL. injection EL as EL _. congruence. }
    apply touch; [exact CI|right; reflexivity|exact NC|cbn; lia|intros Q; congruence| | |exact SUB|intros y k []|].
    + intros _ k u Q. unfold V in VN0. cbn [s p_descs w_inbox] in Q. congruence.
    + intros y k f P. apply (serv_back w x s [] y k c f eq_refl) in P. destruct (c7 y k f P) as (Y & F & R1 & R2). split; [exact Y|]. split; [exact F|]. rewrite POUT. split; [exact R1|]. intros k' K. apply R2. rewrite PIN in K. rewrite PIN0. right. exact K.
    + rewrite V_same, (V_other _ _ _ _ _ _ (not_eq_sym NX)), !sent_step, !got_step, PIN, POUT. change (sent_of c ev) with (@nil (bool * Z)). change (got_of c ev) with (@nil (bool * Z)). cbn [s p_descs w_inbox]. fold (V w x c). rewrite VN0 in *. rewrite PIN0 in c11, NR. apply (drop_p _ _ _ _ _ _ _ _ _ NR) in c11. destruct (x =? x), (x =? fst c); rewrite !app_nil_r; exact c11.
Qed.

(* the service returns *)
Lemma keep_return w h x i o n c f ou user data ms : Inv w h -> p_serv (w_proc w x) = Some (n, c, f) -> at_ n (p_descs (w_proc w x)) = None ->
  (ms = [] \/ ms = [(f, mk_msg c (Returned (code_of ou) user data))]) -> let s := w_serv None (w_proc w x) in let ev := [Back c ou user data] in
  exists t, tgt (h ++ [(x, i, o, ev)]) c t /\ CInv (nw w x s ms) (h ++ [(x, i, o, ev)]) c t.
Proof.
  intros IV PS A MS s ev. assert (NC : forall t0, ~ In (Called c t0) ev) by (intros t0 [H|[]]; discriminate H).
  destruct (i_all _ _ IV c) as [(t & T & CI)|[_ UN]]; [|destruct (u_serv _ _ _ UN x n f PS)]. pose proof CI as [c1 c2 c3 c4 c5 c6 c7 c8 c9 c10 c11].
  exists t. split; [apply tgt_step; assumption|]. destruct (c7 x n f PS) as (X & F & R1 & R2). subst x f. assert (NX : t <> fst c) by exact c1.
  assert (VN0 : V w t c = None). { destruct (V w t c) as [[k u]|] eqn:EV; [|reflexivity]. destruct (c5 k u eq_refl) as (_ & _ & Q). destruct (val_at _ _ _ _ EV) as [B _]. rewrite PS in Q. injection Q as <-. congruence. }
  assert (PIN : path (fst c) t c (nw w t s ms) = path (fst c) t c w) by (rewrite path_in by exact NX; reflexivity).
  assert (POUT : path t (fst c) c (nw w t s ms) = path t (fst c) c w \/ path t (fst c) c (nw w t s ms) = path t (fst c) c w ++ [Returned (code_of ou) user data]).
  { rewrite path_out by exact NX. destruct MS as [-> | ->]; [left; rewrite sel_nil, app_nil_r; reflexivity|right; rewrite sel_one; reflexivity]. }
  apply touch; [exact CI|right; reflexivity|exact NC|cbn; lia|intros Q; congruence| | | |..].
  - intros _ k u Q. unfold V in VN0. cbn [s p_descs w_serv] in Q. congruence.
  - intros y k g P. exfalso. unfold nw in P. cbn [w_proc] in P. destruct (Z.eq_dec y t) as [->|N]; [rewrite put_same in P; discriminate P|]. rewrite put_other in P by exact N. destruct (c7 y k g P) as (Y & _). congruence.
  - intros b B. exact B.
  - intros y m B C. right. destruct MS as [-> | ->]; [destruct B|]. destruct B as [[= <- <-]|[]]. split; [reflexivity|]. split; [reflexivity|]. cbn [m_body to_init]. exists ou. split; [reflexivity|]. rewrite of_proc_app, of_proc_one, Z.eqb_refl. apply in_app_iff. right. left. reflexivity.
  - rewrite V_same, (V_other _ _ _ _ _ _ (not_eq_sym NX)), !sent_step, !got_step, PIN. change (sent_of c ev) with (@nil (bool * Z)). change (got_of c ev) with (@nil (bool * Z)). cbn [s p_descs w_serv]. fold (V w t c). rewrite VN0 in *. cbn [dup_of] in *.
    destruct (t =? t), (t =? fst c); rewrite !app_nil_r; (destruct POUT as [-> | ->]; [exact c11|apply return_b; assumption]).
Qed.
