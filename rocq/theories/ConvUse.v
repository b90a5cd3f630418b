(* What the user relies on, from the invariants *)
From Coq Require Import ZArith List Bool Lia.
From Verif Require Import ConvModel ConvSpec ConvProofs ConvInv ConvShape ConvMove ConvKeep ConvKept ConvAll ConvAct ConvOpen ConvTold ConvReach.
Import ListNotations.
Local Open Scope Z_scope.

Lemma runs_reach l w h : runs l w h -> Reach w h l.
Proof. intros [E O]. exact (reach_all l w h E O). Qed.
Lemma asks_step x i w o ev w' : asks x i w o ev w' -> exists s ms, step x i (w_proc w x) = (s, o, ms, ev) /\ w' = nw w x s ms.
Proof. unfold asks. cbn [act]. destruct (step x i (w_proc w x)) as [[[s o'] ms] ev']. intros [= <- <- <-]. exists s, ms. auto. Qed.

(* the one that called is the one of the correlation *)
Lemma step_called x i s s' o ms ev c t : step x i s = (s', o, ms, ev) -> In (Called c t) ev -> fst c = x.
Proof.
  intros ST B. apply step_move in ST. destruct ST as [M|(s1 & k & v & _ & A & ES & (ou & user & data & EE & M) & _)]; [|rewrite EE in B; destruct B as [B|[B|[]]]; discriminate B].
  destruct M as [| |t0 d data ds k PC0 CT CE R|k c' a b g PC0 EI G|k c' PC0|k v PC0 A|k v PC0 A VI EI EO|k v a m b PC0 A EI MC MB|k v d data PC0 A DV NM|k v a d data b told PC0 A DV EI NA|k v a d data b PC0 A DV EI|c' f d data r ds k PC0 PS EP EI R|m r PC0 PS EP EI RQ|k c' f ou user data ms PS A MS]; cbn [In] in B; repeat (destruct B as [B|B]; try discriminate B); try contradiction. injection B as <- _. reflexivity.
Qed.
Lemma called_acts l : forall w h, (forall x c t, In (Called c t) (of_proc x h) -> fst c = x) -> forall x c t, In (Called c t) (of_proc x (h ++ snd (acts l w))) -> fst c = x.
Proof.
  induction l as [|a l IH]; intros w h H; cbn [acts]; [cbn; rewrite app_nil_r; exact H|]. destruct (act a w) as [w1 h1] eqn:EA. assert (H1 : forall x c t, In (Called c t) (of_proc x (h ++ h1)) -> fst c = x).
  { intros x c t. rewrite of_proc_app, in_app_iff. intros [B|B]; [exact (H x c t B)|]. destruct a as [p i|a b|p c0]; cbn [act] in EA.
    - destruct (step p i (w_proc w p)) as [[[s o] ms] ev] eqn:ST. injection EA as _ <-. rewrite of_proc_one in B. destruct (p =? x) eqn:E; [|destruct B]. apply Z.eqb_eq in E. subst x. exact (step_called _ _ _ _ _ _ _ _ _ ST B).
    - destruct (take_net a b (w_net w)) as [[m r]|]; injection EA as _ <-; destruct B.
    - injection EA as _ <-. destruct B. }
  specialize (IH w1 (h ++ h1) H1). destruct (acts l w1) as [w2 h2]. cbn [fst snd] in *. rewrite app_assoc. exact IH.
Qed.
Lemma called_own l w h x c t : runs l w h -> connected x t c h -> x = fst c /\ tgt h c t.
Proof.
  intros [E O] C. pose proof (called_acts l world0 [] (fun x c t (B : In (Called c t) (of_proc x [])) => match B with end) x c t) as H. rewrite E in H. cbn [snd app] in H. unfold connected in C. pose proof (H C) as X. subst x. split; [reflexivity|exact C].
Qed.
Lemma two l w h x y c : runs l w h -> between x y c h -> exists t, tgt h c t /\ CInv w h c t /\ x <> y /\ ((x = fst c /\ y = t) \/ (x = t /\ y = fst c)).
Proof.
  intros R B. pose proof (r_all _ _ _ (runs_reach l w h R)) as [IV _]. destruct B as [B|B]; destruct (called_own l w h _ c _ R B) as [-> T]; pose proof (the_target w h c _ IV T) as CI; pose proof (c_other _ _ _ _ CI); eexists; (split; [exact T|]); (split; [exact CI|]); auto.
Qed.
(* the value of a descriptor *)
Lemma open_at l w h x d c : Reach w h l -> In (d, c) (opened x h) -> p_conn (w_proc w x) = None -> exists n v, d = Z.of_nat n /\ at_ n (p_descs (w_proc w x)) = Some v /\ v_corr v = c /\ control x c h = gives (v_dup v) /\ lookup d (p_descs (w_proc w x)) = Some (n, v) /\ V w x c = Some (n, v).
Proof.
  intros R B PC. pose proof (r_all _ _ _ R) as [IV PO]. destruct (p_is _ _ _ (PO x) d c B) as (n & v & -> & A & C & _). exists n, v. split; [reflexivity|]. split; [exact A|]. split; [exact C|]. split; [|split; [exact (lookup_at _ _ _ A)|unfold V; rewrite <- C; exact (at_val _ _ _ (i_uniq _ _ IV x) A)]].
  destruct (p_has _ _ _ (PO x) n v A) as [(c' & E)|[_ E]]; [congruence|]. congruence.
Qed.
Lemma open_val l w h x d c : Reach w h l -> In (d, c) (opened x h) -> exists n v, d = Z.of_nat n /\ at_ n (p_descs (w_proc w x)) = Some v /\ v_corr v = c /\ control x c h = gives (v_dup v) /\ V w x c = Some (n, v).
Proof.
  intros R B. pose proof (r_all _ _ _ R) as [IV PO]. destruct (p_is _ _ _ (PO x) d c B) as (n & v & -> & A & C & NC). exists n, v. split; [reflexivity|]. split; [exact A|]. split; [exact C|]. split; [|unfold V; rewrite <- C; exact (at_val _ _ _ (i_uniq _ _ IV x) A)].
  destruct (p_has _ _ _ (PO x) n v A) as [(c' & E)|[_ E]]; [destruct (NC c' E)|]. congruence.
Qed.
Lemma not_conn x i w o ev w' d : asks x i w o ev w' -> on i d -> o <> O_ignored -> p_conn (w_proc w x) = None.
Proof. intros A O N. destruct (asks_step _ _ _ _ _ _ A) as (s & ms & ST & _). unfold step in ST. destruct (p_conn (w_proc w x)); [|reflexivity]. destruct i; try destruct O; injection ST as _ <- _ _; destruct (N eq_refl). Qed.
Lemma nw_unchanged w x : unchanged w (nw w x (w_proc w x) []).
Proof. split; [intros y; unfold nw; cbn [w_proc]; unfold put; destruct (y =? x) eqn:E; [apply Z.eqb_eq in E; subst; reflexivity|reflexivity]|unfold nw; cbn [w_net map]; apply app_nil_r]. Qed.

Lemma use_send_proto l w h x d c ro data f o ev w' : runs l w h -> In (d, c) (opened x h) -> control x c h = false -> asks x (Tpsend d ro data f) w o ev w' -> o <> O_ignored -> o = O_error TPEPROTO /\ ev = [] /\ unchanged w w'.
Proof.
  intros R B C A N. pose proof (not_conn _ _ _ _ _ _ d A eq_refl N) as PC. destruct (open_at l w h x d c (runs_reach _ _ _ R) B PC) as (n & v & -> & AT & VC & CT & L & _). destruct (asks_step _ _ _ _ _ _ A) as (s & ms & ST & ->). unfold step in ST. rewrite PC in ST. unfold tpsend in ST. rewrite L in ST. rewrite C in CT. destruct (v_dup v); [discriminate CT|]. injection ST as <- <- <- <-. split; [reflexivity|]. split; [reflexivity|apply nw_unchanged].
Qed.
Lemma use_recv_proto l w h x d c nb sg mm o ev w' : runs l w h -> In (d, c) (opened x h) -> control x c h = true -> asks x (Tprecv d nb sg mm) w o ev w' -> o <> O_ignored -> o = O_error TPEPROTO /\ ev = [] /\ unchanged w w'.
Proof.
  intros R B C A N. pose proof (not_conn _ _ _ _ _ _ d A eq_refl N) as PC. destruct (open_at l w h x d c (runs_reach _ _ _ R) B PC) as (n & v & -> & AT & VC & CT & L & _). destruct (asks_step _ _ _ _ _ _ A) as (s & ms & ST & ->). unfold step in ST. rewrite PC in ST. unfold tprecv in ST. rewrite L in ST. rewrite C in CT. destruct (v_dup v); [|discriminate CT]. injection ST as <- <- <- <-. split; [reflexivity|]. split; [reflexivity|apply nw_unchanged].
Qed.
(* the path to the one that has it open carries what it hasn't got *)
Lemma path_data l w h x y d c : runs l w h -> between x y c h -> In (d, c) (opened y h) -> got y c h ++ dt (path x y c w) = sent x c h.
Proof.
  intros R B O. destruct (two l w h x y c R B) as (t & T & CI & NE & W). destruct (open_val l w h y d c (runs_reach _ _ _ R) O) as (n & v & _ & _ & _ & _ & EV). pose proof (c_shape _ _ _ _ CI) as SH. destruct W as [[-> ->]|[-> ->]].
  - apply (sh_dq _ _ _ _ _ _ _ _ SH). left. rewrite EV. discriminate.
  - apply (sh_dp _ _ _ _ _ _ _ _ SH). rewrite EV. discriminate.
Qed.
Lemma use_control_all l w h x y d c : runs l w h -> between x y c h -> In (d, c) (opened y h) -> control y c h = true -> got y c h = sent x c h.
Proof.
  intros R B O C. pose proof (path_data l w h x y d c R B O) as PD. destruct (two l w h x y c R B) as (t & T & CI & NE & W). destruct (open_val l w h y d c (runs_reach _ _ _ R) O) as (n & v & _ & _ & _ & CT & EV). pose proof (sh_one _ _ _ _ _ _ _ _ (c_shape _ _ _ _ CI)) as ON. rewrite C in CT.
  assert (D : dt (path x y c w) = []); [|rewrite D, app_nil_r in PD; exact PD]. destruct (dt (path x y c w)) as [|z r] eqn:E; [reflexivity|]. exfalso. apply ON. destruct W as [[-> ->]|[-> ->]].
  - split; [right; rewrite E; discriminate|left; rewrite EV; cbn; destruct (v_dup v); [reflexivity|discriminate CT]].
  - split; [left; rewrite EV; cbn; destruct (v_dup v); [reflexivity|discriminate CT]|right; rewrite E; discriminate].
Qed.
Lemma use_one l w h x y d d' c : runs l w h -> between x y c h -> In (d, c) (opened x h) -> In (d', c) (opened y h) -> ~ (control x c h = true /\ control y c h = true).
Proof.
  intros R B O O' [C C']. destruct (two l w h x y c R B) as (t & T & CI & NE & W). destruct (open_val l w h x d c (runs_reach _ _ _ R) O) as (n & v & _ & _ & _ & CT & EV). destruct (open_val l w h y d' c (runs_reach _ _ _ R) O') as (n' & v' & _ & _ & _ & CT' & EV'). pose proof (sh_one _ _ _ _ _ _ _ _ (c_shape _ _ _ _ CI)) as ON. rewrite C in CT. rewrite C' in CT'.
  apply ON. assert (E1 : v_dup v = DSend) by (destruct (v_dup v); [reflexivity|discriminate CT]). assert (E2 : v_dup v' = DSend) by (destruct (v_dup v'); [reflexivity|discriminate CT']). destruct W as [[-> ->]|[-> ->]]; rewrite EV, EV'; split; left; cbn [dup_of]; congruence.
Qed.
Lemma use_order l w h x y c : runs l w h -> between x y c h -> prefix (got y c h) (sent x c h).
Proof. intros R B. destruct (two l w h x y c R B) as (t & T & CI & NE & W). pose proof (c_shape _ _ _ _ CI) as SH. destruct W as [[-> ->]|[-> ->]]; [exact (sh_pq _ _ _ _ _ _ _ _ SH)|exact (sh_pp _ _ _ _ _ _ _ _ SH)]. Qed.

(* ---------------------------------------------------------------- what may be in the inbox of one that has it open *)
Lemma in_path w x y c b m : In m (p_inbox (w_proc w y)) -> m = mk_msg c b -> is_died b = false -> In b (path x y c w).
Proof. intros I -> D. unfold path. apply in_app_iff. left. apply mine_in. auto. Qed.
Lemma no_disc_to_init l w h c t b : Reach w h l -> CInv w h c t -> In b (path t (fst c) c w) -> b <> Disconnect.
Proof.
  intros R CI B -> . unfold path in B. apply in_app_iff in B. destruct B as [B|B].
  - exact (c_inp _ _ _ _ CI _ B).
  - apply way_in in B. destruct (c_net _ _ _ _ CI _ _ _ B) as [(E & _)|(_ & _ & L)]; [exact (c_other _ _ _ _ CI E)|exact L].
Qed.
Lemma disc_why l w h x y c : runs l w h -> between x y c h -> In Disconnect (mine c (p_inbox (w_proc w y))) -> disconnected x c h.
Proof.
  intros R B I. destruct (two l w h x y c R B) as (t & T & CI & NE & W). destruct W as [[-> ->]|[-> ->]].
  - exact (c_int _ _ _ _ CI _ I).
  - destruct (c_inp _ _ _ _ CI _ I).
Qed.
Lemma ret_why l w h x y c code user data : runs l w h -> between x y c h -> In (Returned code user data) (mine c (p_inbox (w_proc w y))) -> exists ou, code = code_of ou /\ In (Back c ou user data) (of_proc x h).
Proof.
  intros R B I. destruct (two l w h x y c R B) as (t & T & CI & NE & W). destruct W as [[-> ->]|[-> ->]].
  - destruct (c_int _ _ _ _ CI _ I).
  - exact (c_inp _ _ _ _ CI _ I).
Qed.
Lemma ret_last l w h x y d c a code user data b : runs l w h -> between x y c h -> In (d, c) (opened y h) -> path x y c w = a ++ Returned code user data :: b -> b = [].
Proof.
  intros R B O E. destruct (two l w h x y c R B) as (t & T & CI & NE & W). destruct W as [[-> ->]|[-> ->]].
  - exfalso. assert (I : In (Returned code user data) (path (fst c) t c w)) by (rewrite E; apply in_app_iff; right; left; reflexivity). unfold path in I. apply in_app_iff in I. destruct I as [I|I]; [exact (c_int _ _ _ _ CI _ I)|]. apply way_in in I. destruct (c_net _ _ _ _ CI _ _ _ I) as [(_ & _ & L)|(Q & _)]; [exact L|congruence].
  - exact (proj2 (sh_ret _ _ _ _ _ _ _ _ (c_shape _ _ _ _ CI) a _ b E eq_refl)).
Qed.
Lemma no_req l w h x y d c b : runs l w h -> between x y c h -> In (d, c) (opened y h) -> In b (path x y c w) -> is_request b = false.
Proof.
  intros R B O I. destruct (two l w h x y c R B) as (t & T & CI & NE & W). destruct (open_val l w h y d c (runs_reach _ _ _ R) O) as (n & v & _ & _ & _ & _ & EV). destruct W as [[-> ->]|[-> ->]].
  - exact (no_request w h c t n v b CI EV I).
  - exact (init_request w h c t b CI I).
Qed.
Lemma died_why l w h y c : runs l w h -> In (mk_msg c ServerDied) (p_inbox (w_proc w y)) -> In (Died y c) l.
Proof. intros R I. exact (r_dies _ _ _ (runs_reach _ _ _ R) y c I). Qed.

(* the first message that tprecv finds *)
Lemma first_msg l w h x y d c a m b : runs l w h -> between x y c h -> In (d, c) (opened y h) -> p_inbox (w_proc w y) = a ++ m :: b -> (forall k, In k a -> is_message c k = false) -> m_corr m = c ->
  match m_body m with
  | Data dup data => exists r, sent x c h = got y c h ++ (gives dup, data) :: r
  | Returned code user data => got y c h = sent x c h /\ exists ou, code = code_of ou /\ In (Back c ou user data) (of_proc x h)
  | _ => True
  end.
Proof.
  intros R B O EI NA MC. pose proof (path_data l w h x y d c R B O) as PD. assert (M : m = mk_msg c (m_body m)) by (destruct m; cbn in *; congruence).
  assert (NR : forall k, In k (mine c a) -> is_request k = false) by (intros k K; apply (no_req l w h x y d c k R B O); unfold path; rewrite EI, mine_mid; apply in_app_iff; left; apply in_app_iff; left; exact K).
  pose proof (quiet_mine c a NA NR) as Q. destruct (m_body m) as [f dup data| |dup data|code user data| |] eqn:MB; try exact I.
  - assert (E : path x y c w = mine c a ++ Data dup data :: (mine c b ++ way x y c (w_net w))) by (unfold path; rewrite EI, mine_mid; rewrite M at 1; rewrite mine_one by reflexivity; rewrite <- !app_assoc; reflexivity).
    rewrite E in PD. rewrite (proj1 (recv_dt _ dup data _ Q)) in PD. eexists. symmetry. exact PD.
  - assert (E : path x y c w = mine c a ++ Returned code user data :: (mine c b ++ way x y c (w_net w))) by (unfold path; rewrite EI, mine_mid; rewrite M at 1; rewrite mine_one by reflexivity; rewrite <- !app_assoc; reflexivity).
    pose proof (ret_last l w h x y d c _ _ _ _ _ R B O E) as L. rewrite E, L, dt_app, Q in PD. cbn in PD. rewrite app_nil_r in PD. split; [exact PD|]. apply (ret_why l w h x y c code user data R B). rewrite EI, mine_mid. rewrite M at 1. rewrite mine_one by reflexivity. apply in_app_iff. right. left. reflexivity.
Qed.
Lemma arrived_path x y c w : arrived x y w -> path x y c w = mine c (p_inbox (w_proc w y)).
Proof. intros A. unfold path. rewrite (way_none x y c _ A). apply app_nil_r. Qed.
Lemma none_dt l w h x y d c : runs l w h -> between x y c h -> In (d, c) (opened y h) -> arrived x y w -> (forall k, In k (p_inbox (w_proc w y)) -> is_message c k = false) -> got y c h = sent x c h.
Proof.
  intros R B O AR N. pose proof (path_data l w h x y d c R B O) as PD. rewrite (arrived_path x y c w AR) in PD. rewrite quiet_mine in PD; [rewrite app_nil_r in PD; exact PD|exact N|]. intros k K. apply (no_req l w h x y d c k R B O). rewrite (arrived_path x y c w AR). exact K.
Qed.

Lemma use_next l w h x y d c g data r nb sg o ev w' : runs l w h -> between x y c h -> In (d, c) (opened y h) -> control y c h = false -> arrived x y w -> sent x c h = got y c h ++ (g, data) :: r ->
  asks y (Tprecv d nb sg false) w o ev w' -> o <> O_ignored ->
  (o = O_received g data /\ ev = [Got c g data true]) \/ (o = O_event TPEV_DISCONIMM 0 /\ disconnected x c h) \/ (o = O_event TPEV_SVCERR 0 /\ In (Died y c) l).
Proof.
  intros R B O C AR E A N. pose proof (not_conn _ _ _ _ _ _ d A eq_refl N) as PC. destruct (open_at l w h y d c (runs_reach _ _ _ R) O PC) as (n & v & -> & AT & VC & CT & L & _). destruct (asks_step _ _ _ _ _ _ A) as (s & ms & ST & ->). unfold step in ST. rewrite PC in ST. unfold tprecv in ST. rewrite L in ST. rewrite C in CT. destruct (v_dup v); [discriminate CT|]. rewrite VC in ST.
  destruct (take (is_disconnect c) (p_inbox (w_proc w y))) as [[m r0]|] eqn:T1.
  - apply take_split in T1. destruct T1 as (a & b & EI & -> & F & _). apply is_disc_body in F. destruct F as [F1 F2]. cbn [drop] in ST. injection ST as <- <- <- <-. right. left. split; [reflexivity|]. apply (disc_why l w h x y c R B). apply mine_in. split; [|reflexivity]. rewrite EI. apply in_app_iff. right. left. destruct m; cbn in *; congruence.
  - destruct (take (is_message c) (p_inbox (w_proc w y))) as [[m r0]|] eqn:T2.
    + apply take_split in T2. destruct T2 as (a & b & EI & -> & F & NA). unfold is_message in F. rewrite andb_true_iff, corr_eqb_eq in F. destruct F as [MC MB]. pose proof (first_msg l w h x y _ c a m b R B O EI NA MC) as FM. destruct (m_body m) as [f0 dup data0| |dup data0|code user data0| |] eqn:BD; try discriminate MB.
      * destruct FM as (r1 & FM). rewrite E in FM. apply app_inv_head in FM. injection FM as -> -> _. injection ST as <- <- <- <-. left. auto.
      * destruct FM as [FM _]. rewrite <- FM in E. exfalso. assert (Q : length (got y c h) = length (got y c h ++ (g, data) :: r)) by (rewrite <- E; reflexivity). rewrite app_length in Q. cbn in Q. lia.
      * exfalso. pose proof (take_none _ _ T1 m) as Q. rewrite EI in Q. assert (I : In m (a ++ m :: b)) by (apply in_app_iff; right; left; reflexivity). specialize (Q I). unfold is_disconnect in Q. rewrite MC, corr_eqb_refl, BD in Q. discriminate Q.
      * cbn [drop] in ST. injection ST as <- <- <- <-. right. right. split; [reflexivity|]. apply (died_why l w h y c R). rewrite EI. apply in_app_iff. right. left. destruct m; cbn in *; congruence.
    + exfalso. pose proof (none_dt l w h x y _ c R B O AR (take_none _ _ T2)) as Q. rewrite <- Q in E. assert (Q1 : length (got y c h) = length (got y c h ++ (g, data) :: r)) by (rewrite <- E; reflexivity). rewrite app_length in Q1. cbn in Q1. lia.
Qed.

Lemma use_recv_event l w h x y d c nb sg mm e user ev w' : runs l w h -> between x y c h -> In (d, c) (opened y h) -> asks y (Tprecv d nb sg mm) w (O_event e user) ev w' -> end_of l h x y c e user /\ ev = [Closed c d].
Proof.
  intros R B O A. pose proof (not_conn _ _ _ _ _ _ d A eq_refl ltac:(discriminate)) as PC. destruct (open_at l w h y d c (runs_reach _ _ _ R) O PC) as (n & v & -> & AT & VC & CT & L & _). destruct (asks_step _ _ _ _ _ _ A) as (s & ms & ST & ->). unfold step in ST. rewrite PC in ST. unfold tprecv in ST. rewrite L in ST. destruct (v_dup v); [discriminate ST|]. rewrite VC in ST.
  destruct (take (is_disconnect c) (p_inbox (w_proc w y))) as [[m r0]|] eqn:T1.
  - apply take_split in T1. destruct T1 as (a & b & EI & -> & F & _). apply is_disc_body in F. destruct F as [F1 F2]. cbn [drop] in ST. rewrite VC in ST. injection ST as <- <- <- <- <-. split; [|reflexivity]. left. split; [reflexivity|]. split; [reflexivity|]. apply (disc_why l w h x y c R B). apply mine_in. split; [|reflexivity]. rewrite EI. apply in_app_iff. right. left. destruct m; cbn in *; congruence.
  - destruct (take (is_message c) (p_inbox (w_proc w y))) as [[m r0]|] eqn:T2; [|destruct nb; [discriminate ST|]; destruct sg; discriminate ST].
    apply take_split in T2. destruct T2 as (a & b & EI & -> & F & NA). unfold is_message in F. rewrite andb_true_iff, corr_eqb_eq in F. destruct F as [MC MB]. pose proof (first_msg l w h x y _ c a m b R B O EI NA MC) as FM. destruct (m_body m) as [f0 dup data0| |dup data0|code user0 data0| |] eqn:BD; try discriminate MB.
    + destruct mm; discriminate ST.
    + cbn [drop] in ST. rewrite VC in ST. destruct FM as [FM (ou & -> & FB)]. destruct mm; [discriminate ST|]. split; [|injection ST as _ _ _ <-; reflexivity]. right. right. exists ou, user0, data0. split; [exact FB|]. split; [exact FM|]. destruct ou; cbn in ST; injection ST as _ <- <- _ _; reflexivity.
    + exfalso. pose proof (take_none _ _ T1 m) as Q. rewrite EI in Q. assert (I : In m (a ++ m :: b)) by (apply in_app_iff; right; left; reflexivity). specialize (Q I). unfold is_disconnect in Q. rewrite MC, corr_eqb_refl, BD in Q. discriminate Q.
    + cbn [drop] in ST. rewrite VC in ST. injection ST as <- <- <- <- <-. split; [|reflexivity]. right. left. split; [reflexivity|]. split; [reflexivity|]. apply (died_why l w h y c R). rewrite EI. apply in_app_iff. right. left. destruct m; cbn in *; congruence.
Qed.
Lemma use_send_event l w h x y d c ro data f e user ev w' : runs l w h -> between x y c h -> In (d, c) (opened y h) -> asks y (Tpsend d ro data f) w (O_event e user) ev w' -> end_of_send l h x y c e user /\ ev = [Closed c d].
Proof.
  intros R B O A. pose proof (not_conn _ _ _ _ _ _ d A eq_refl ltac:(discriminate)) as PC. destruct (open_at l w h y d c (runs_reach _ _ _ R) O PC) as (n & v & -> & AT & VC & CT & L & _). destruct (asks_step _ _ _ _ _ _ A) as (s & ms & ST & ->). unfold step in ST. rewrite PC in ST. unfold tpsend in ST. rewrite L in ST. destruct (v_dup v) eqn:DV; [|discriminate ST]. rewrite VC in ST. cbn [p_inbox w_descs] in ST.
  destruct (take (is_disconnect c) (p_inbox (w_proc w y))) as [[m r0]|] eqn:T1.
  - apply take_split in T1. destruct T1 as (a & b & EI & -> & F & _). apply is_disc_body in F. destruct F as [F1 F2]. cbn [drop] in ST. rewrite VC in ST. injection ST as <- <- <- <- <-. split; [|reflexivity]. left. split; [reflexivity|]. split; [reflexivity|]. apply (disc_why l w h x y c R B). apply mine_in. split; [|reflexivity]. rewrite EI. apply in_app_iff. right. left. destruct m; cbn in *; congruence.
  - destruct (take (is_message c) (p_inbox (w_proc w y))) as [[m r0]|] eqn:T2; [|destruct f; discriminate ST].
    apply take_split in T2. destruct T2 as (a & b & EI & -> & F & NA). unfold is_message in F. rewrite andb_true_iff, corr_eqb_eq in F. destruct F as [MC MB]. pose proof (first_msg l w h x y _ c a m b R B O EI NA MC) as FM. destruct (m_body m) as [f0 dup data0| |dup data0|code user0 data0| |] eqn:BD; try discriminate MB.
    + exfalso. destruct (runs_reach _ _ _ R) as [[IV _] _ _ _]. apply (never_bad w h y n v a dup data0 b IV AT DV). rewrite EI. f_equal. f_equal. rewrite VC. destruct m; cbn in *; congruence.
    + cbn [drop] in ST. rewrite VC in ST. destruct FM as [FM (ou & -> & FB)]. split; [|destruct (code_of ou =? TPESVCFAIL); injection ST as _ _ _ _ <-; reflexivity]. right. right. exists ou, user0, data0. split; [exact FB|]. destruct ou; cbn in ST; injection ST as _ <- <- _ _; split; reflexivity.
    + exfalso. pose proof (take_none _ _ T1 m) as Q. rewrite EI in Q. assert (I : In m (a ++ m :: b)) by (apply in_app_iff; right; left; reflexivity). specialize (Q I). unfold is_disconnect in Q. rewrite MC, corr_eqb_refl, BD in Q. discriminate Q.
    + cbn [drop] in ST. rewrite VC in ST. injection ST as <- <- <- <- <-. split; [|reflexivity]. right. left. split; [reflexivity|]. split; [reflexivity|]. apply (died_why l w h y c R). rewrite EI. apply in_app_iff. right. left. destruct m; cbn in *; congruence.
Qed.

(* the return is told *)
Lemma ret_is w h l c t ou user data : Reach w h l -> tgt h c t -> returned t c ou user data h -> V w (fst c) c <> None -> In (Returned (code_of ou) user data) (path t (fst c) c w).
Proof. intros R T B N. exact (k_ret _ _ (r_k _ _ _ R) c t ou user data T B N). Qed.
Lemma use_return_told l w h x y d c ou user data nb sg o ev w' : runs l w h -> connected x y c h -> In (d, c) (opened x h) -> control x c h = false -> returned y c ou user data h -> arrived y x w -> got x c h = sent y c h -> ~ In (Died x c) l ->
  asks x (Tprecv d nb sg false) w o ev w' -> o <> O_ignored -> o = told_return ou user /\ ev = [Closed c d].
Proof.
  intros R CN O C RT AR GS ND A N. destruct (called_own l w h x c y R CN) as [-> T]. assert (B : between y (fst c) c h) by (right; exact CN). pose proof (runs_reach _ _ _ R) as RR. destruct (open_val l w h _ d c RR O) as (n0 & v0 & _ & _ & _ & _ & EV).
  assert (RI : In (Returned (code_of ou) user data) (path y (fst c) c w)) by (apply (ret_is w h l); [exact RR|exact T|exact RT|rewrite EV; discriminate]). rewrite (arrived_path y (fst c) c w AR) in RI.
  pose proof (not_conn _ _ _ _ _ _ d A eq_refl N) as PC. destruct (open_at l w h _ d c RR O PC) as (n & v & -> & AT & VC & CT & L & _). destruct (asks_step _ _ _ _ _ _ A) as (s & ms & ST & ->). unfold step in ST. rewrite PC in ST. unfold tprecv in ST. rewrite L in ST. rewrite C in CT. destruct (v_dup v); [discriminate CT|]. rewrite VC in ST.
  destruct (take (is_disconnect c) (p_inbox (w_proc w (fst c)))) as [[m r0]|] eqn:T1.
  - exfalso. apply take_split in T1. destruct T1 as (a & b & EI & -> & F & _). apply is_disc_body in F. destruct F as [F1 F2]. assert (I : In Disconnect (path y (fst c) c w)) by (apply (in_path w y (fst c) c Disconnect m); [rewrite EI; apply in_app_iff; right; left; reflexivity|destruct m; cbn in *; congruence|reflexivity]). exact (no_disc_to_init l w h c y _ RR (the_target w h c y (proj1 (r_all _ _ _ RR)) T) I eq_refl).
  - destruct (take (is_message c) (p_inbox (w_proc w (fst c)))) as [[m r0]|] eqn:T2.
    + apply take_split in T2. destruct T2 as (a & b & EI & -> & F & NA). unfold is_message in F. rewrite andb_true_iff, corr_eqb_eq in F. destruct F as [MC MB]. pose proof (first_msg l w h y (fst c) _ c a m b R B O EI NA MC) as FM. destruct (m_body m) as [f0 dup data0| |dup data0|code user0 data0| |] eqn:BD; try discriminate MB.
      * exfalso. destruct FM as (r1 & FM). rewrite <- GS in FM. assert (Q1 : length (got (fst c) c h) = length (got (fst c) c h ++ (gives dup, data0) :: r1)) by (rewrite <- FM; reflexivity). rewrite app_length in Q1. cbn in Q1. lia.
      * assert (M : m = mk_msg c (Returned code user0 data0)) by (destruct m; cbn in *; congruence).
        assert (E : path y (fst c) c w = mine c a ++ Returned code user0 data0 :: mine c b) by (rewrite (arrived_path _ _ _ _ AR), EI, mine_mid, M, mine_one by reflexivity; reflexivity).
        pose proof (ret_last l w h y (fst c) _ c _ _ _ _ _ R B O E) as LB. rewrite <- (arrived_path y (fst c) c w AR), E, LB in RI. apply in_app_iff in RI. destruct RI as [RI|[RI|[]]].
        -- exfalso. destruct (in_split _ _ RI) as (l1 & l2 & EL). rewrite EL, LB, <- app_assoc in E. cbn [app] in E. pose proof (ret_last l w h y (fst c) _ c _ _ _ _ _ R B O E) as Q. destruct l2; discriminate Q.
        -- injection RI as -> -> ->. cbn [drop] in ST. rewrite VC in ST. destruct ou; cbn in ST; injection ST as _ <- _ <-; split; reflexivity.
      * exfalso. pose proof (take_none _ _ T1 m) as Q. rewrite EI in Q. assert (I : In m (a ++ m :: b)) by (apply in_app_iff; right; left; reflexivity). specialize (Q I). unfold is_disconnect in Q. rewrite MC, corr_eqb_refl, BD in Q. discriminate Q.
      * exfalso. apply ND. apply (died_why l w h _ c R). rewrite EI. apply in_app_iff. right. left. destruct m; cbn in *; congruence.
    + exfalso. apply mine_in in RI. destruct RI as [RI _]. pose proof (take_none _ _ T2 _ RI) as Q. unfold is_message in Q. cbn in Q. rewrite corr_eqb_refl in Q. discriminate Q.
Qed.
(* the disconnect is told *)
Lemma use_disc_told l w h x y d c i o ev w' : runs l w h -> connected x y c h -> In (d, c) (opened y h) -> disconnected x c h -> arrived x y w ->
  (if control y c h then exists ro data f, i = Tpsend d ro data f else exists nb sg mm, i = Tprecv d nb sg mm) -> asks y i w o ev w' -> o <> O_ignored -> o = O_event TPEV_DISCONIMM 0 /\ ev = [Closed c d].
Proof.
  intros R CN O D AR CI A N. destruct (called_own l w h x c y R CN) as [-> T]. pose proof (runs_reach _ _ _ R) as RR. destruct (open_val l w h _ d c RR O) as (n0 & v0 & _ & _ & _ & _ & EV).
  assert (DI : In Disconnect (path (fst c) y c w)) by (apply (k_dis _ _ (r_k _ _ _ RR) c y T D); left; rewrite EV; discriminate). rewrite (arrived_path _ _ c w AR) in DI. apply mine_in in DI. destruct DI as [DI _].
  assert (ON : on i d) by (destruct (control y c h); [destruct CI as (ro & data & f & ->)|destruct CI as (nb & sg & mm & ->)]; reflexivity).
  pose proof (not_conn _ _ _ _ _ _ d A ON N) as PC. destruct (open_at l w h _ d c RR O PC) as (n & v & -> & AT & VC & CT & L & _). destruct (asks_step _ _ _ _ _ _ A) as (s & ms & ST & ->). unfold step in ST. rewrite PC in ST.
  assert (TK : exists m r, take (is_disconnect c) (p_inbox (w_proc w y)) = Some (m, r)). { destruct (take (is_disconnect c) (p_inbox (w_proc w y))) as [[m r]|] eqn:T1; [exists m, r; reflexivity|]. pose proof (take_none _ _ T1 _ DI) as Q. unfold is_disconnect in Q. cbn in Q. rewrite corr_eqb_refl in Q. discriminate Q. }
  destruct TK as (m & r & TK). destruct (control y c h).
  - destruct CI as (ro & data & f & ->). unfold tpsend in ST. rewrite L in ST. destruct (v_dup v); [|discriminate CT]. rewrite VC in ST. cbn [p_inbox w_descs] in ST. rewrite TK in ST. cbn [drop] in ST. rewrite VC in ST. injection ST as <- <- <- <-. auto.
  - destruct CI as (nb & sg & mm & ->). unfold tprecv in ST. rewrite L in ST. destruct (v_dup v); [discriminate CT|]. rewrite VC in ST. rewrite TK in ST. cbn [drop] in ST. rewrite VC in ST. injection ST as <- <- <- <-. auto.
Qed.
(* tpconnect *)
Lemma use_connect l w h x sig d o ev w' : runs l w h -> asks x (Wait sig) w o ev w' -> o = O_descriptor d -> exists c y g data, ev = [Opened c d (negb g)] /\ connected x y c h /\ sent x c h = [(g, data)] /\ (exists e b, In (Opened c e b) (of_proc y h)) /\ ~ In d (map fst (opened x h)).
Proof.
  intros R A ->. destruct (asks_step _ _ _ _ _ _ A) as (s & ms & ST & ->). pose proof (runs_reach _ _ _ R) as [[IV PO] KV DV AK]. unfold step in ST. assert (ST' : wait sig (w_proc w x) = (s, O_descriptor d, ms, ev)) by (destruct (p_conn (w_proc w x)); exact ST). clear ST. unfold wait in ST'. destruct (p_conn (w_proc w x)) as [[n c]|] eqn:PC; [|discriminate ST'].
  destruct (take (is_connected c) (p_inbox (w_proc w x))) as [[m r]|] eqn:T; [|destruct sig; discriminate ST']. injection ST' as _ <- _ <-. destruct (AK x n c PC) as (v & data & AT & SE). destruct (i_conn _ _ IV x n c PC) as (v' & AT' & VC & VI). rewrite AT in AT'. injection AT' as <-. rewrite AT.
  destruct (who w h x c n v IV) as (t & T0 & CI & X); [rewrite <- VC; exact (at_val _ _ _ (i_uniq _ _ IV x) AT)|]. assert (EV : V w x c = Some (n, v)) by (unfold V; rewrite <- VC; exact (at_val _ _ _ (i_uniq _ _ IV x) AT)). destruct X as [X|X]; [|subst x; destruct (c_sub _ _ _ _ CI n v EV) as (Q & _); congruence]. subst x.
  exists c, t, (gives (invert (v_dup v))), data. split; [destruct (v_dup v); reflexivity|]. split; [exact T0|]. split; [exact SE|]. split.
  - apply take_split in T. destruct T as (a & b & EI & _ & F & _). unfold is_connected in F. rewrite andb_true_iff, corr_eqb_eq in F. destruct F as [F1 F2]. apply (c_inp _ _ _ _ CI Connected). apply mine_in. split; [|reflexivity]. rewrite EI. apply in_app_iff. right. left. destruct m as [mc mb]; cbn in *; destruct mb; try discriminate F2; congruence.
  - intros B. apply in_map_iff in B. destruct B as ([e c'] & E & B). cbn in E. subst e. destruct (p_is _ _ _ (PO (fst c)) _ _ B) as (k & u & E & _ & _ & NC). apply Nat2Z.inj in E. subst k. exact (NC c PC).
Qed.
Lemma use_connect_waits l w h x sig o ev w' : runs l w h -> asks x (Wait sig) w o ev w' -> o = O_waits \/ o = O_error TPGOTSIG -> exists c y, connected x y c h /\ (arrived y x w -> forall e b, ~ In (Opened c e b) (of_proc y h)).
Proof.
  intros R A EO. destruct (asks_step _ _ _ _ _ _ A) as (s & ms & ST & ->). pose proof (runs_reach _ _ _ R) as [[IV PO] KV DV AK]. unfold step in ST. assert (ST' : wait sig (w_proc w x) = (s, o, ms, ev)) by (destruct (p_conn (w_proc w x)); exact ST). clear ST. unfold wait in ST'. destruct (p_conn (w_proc w x)) as [[n c]|] eqn:PC; [|injection ST' as _ <- _ _; destruct EO; discriminate].
  destruct (take (is_connected c) (p_inbox (w_proc w x))) as [[m r]|] eqn:T; [injection ST' as _ <- _ _; destruct EO; discriminate|].
  destruct (i_conn _ _ IV x n c PC) as (v & AT & VC & VI). assert (EV : V w x c = Some (n, v)) by (unfold V; rewrite <- VC; exact (at_val _ _ _ (i_uniq _ _ IV x) AT)). destruct (who w h x c n v IV EV) as (t & T0 & CI & X). destruct X as [X|X]; [|subst x; destruct (c_sub _ _ _ _ CI n v EV) as (Q & _); congruence]. subst x.
  exists c, t. split; [exact T0|]. intros AR e b OP. pose proof (k_con _ _ KV c t n T0 PC (ex_intro _ e (ex_intro _ b OP))) as B. rewrite (arrived_path _ _ c w AR) in B. apply mine_in in B. destruct B as [B _]. pose proof (take_none _ _ T _ B) as Q. unfold is_connected in Q. cbn in Q. rewrite corr_eqb_refl in Q. discriminate Q.
Qed.
(* the service is called with what was sent *)
Lemma use_invoked l w h y d so data o ev w' : runs l w h -> asks y Pump w o ev w' -> o = O_invoked d so data -> exists c x r, ev = [Opened c d so; Got c so data true] /\ connected x y c h /\ sent x c h = (so, data) :: r /\ got y c h = [] /\ ~ In d (map fst (opened y h)).
Proof.
  intros R A ->. destruct (asks_step _ _ _ _ _ _ A) as (s & ms & ST & ->). pose proof (runs_reach _ _ _ R) as [[IV PO] KV DV AK]. unfold step in ST. destruct (p_conn (w_proc w y)) eqn:PC; [discriminate ST|]. unfold pump in ST. destruct (p_serv (w_proc w y)) eqn:PS; [discriminate ST|]. destruct (p_inbox (w_proc w y)) as [|m r] eqn:EI; [discriminate ST|].
  destruct m as [c mb]. cbn [m_body m_corr] in ST. destruct mb as [f dup data0| | | | |]; try discriminate ST. cbn [p_descs w_inbox] in ST. destruct (reserve _ _) as [ds n] eqn:RS in ST. injection ST as _ <- <- <- _ <-.
  destruct (i_all _ _ IV c) as [(t & T & CI)|[_ UN]]; [|pose proof (u_in _ _ _ UN y) as Q; rewrite EI, mine_same in Q by reflexivity; discriminate Q].
  assert (B : In (Request f dup data0) (mine c (p_inbox (w_proc w y)))) by (rewrite EI, mine_same by reflexivity; left; reflexivity).
  destruct (Z.eq_dec y (fst c)) as [E|NX]; [rewrite E in B; destruct (c_inp _ _ _ _ CI _ B)|]. destruct (Z.eq_dec y t) as [E|NT]; [|destruct (c_else _ _ _ _ CI y NX NT) as (_ & Q & _); rewrite Q in B; destruct B]. subst t.
  assert (EP : path (fst c) y c w = Request f dup data0 :: (mine c r ++ way (fst c) y c (w_net w))) by (unfold path; rewrite EI, mine_same by reflexivity; reflexivity).
  pose proof (c_shape _ _ _ _ CI) as SH. destruct (sh_req _ _ _ _ _ _ _ _ SH [] _ _ EP eq_refl) as (_ & _ & _ & _ & GQ & _).
  assert (PD : got y c h ++ dt (path (fst c) y c w) = sent (fst c) c h) by (apply (sh_dq _ _ _ _ _ _ _ _ SH); right; exists (Request f dup data0); rewrite EP; split; [left; reflexivity|reflexivity]). rewrite GQ, EP in PD. cbn [app] in PD.
  exists c, (fst c), (dt (mine c r ++ way (fst c) y c (w_net w))). split; [reflexivity|]. split; [exact T|]. split; [symmetry; exact PD|]. split; [exact GQ|].
  intros Q. apply in_map_iff in Q. destruct Q as ([e c'] & E & Q). cbn in E. subst e. destruct (p_is _ _ _ (PO y) _ _ Q) as (k & u & E & AT & _). apply Nat2Z.inj in E. subst k. destruct (reserve_spec _ _ _ _ RS) as [AN _]. congruence.
Qed.

(* ---------------------------------------------------------------- descriptors *)
Lemma use_distinct l w h x : runs l w h -> NoDup (map fst (opened x h)) /\ (forall d d' c, In (d, c) (opened x h) -> In (d', c) (opened x h) -> d = d').
Proof.
  intros R. pose proof (runs_reach _ _ _ R) as [[IV PO] KV DV AK]. split; [exact (p_nd _ _ _ (PO x))|]. intros d d' c B B'. destruct (p_is _ _ _ (PO x) _ _ B) as (n & v & -> & A & C & _). destruct (p_is _ _ _ (PO x) _ _ B') as (n' & v' & -> & A' & C' & _). f_equal. apply (i_uniq _ _ IV x n n' v v' A A'). congruence.
Qed.
Lemma use_bad l w h x d i o ev w' : runs l w h -> ~ In d (map fst (opened x h)) -> on i d -> asks x i w o ev w' -> o <> O_ignored -> o = O_error TPEBADDESC /\ ev = [] /\ unchanged w w'.
Proof.
  intros R NO ON A N. pose proof (not_conn _ _ _ _ _ _ d A ON N) as PC. pose proof (runs_reach _ _ _ R) as [[IV PO] KV DV AK]. assert (L : lookup d (p_descs (w_proc w x)) = None).
  { destruct (lookup d (p_descs (w_proc w x))) as [[n v]|] eqn:L; [|reflexivity]. exfalso. apply lookup_some in L. destruct L as [-> AT]. apply NO. apply in_map_iff. destruct (p_has _ _ _ (PO x) n v AT) as [(c & E)|[B _]]; [congruence|]. exists (Z.of_nat n, v_corr v). auto. }
  destruct (asks_step _ _ _ _ _ _ A) as (s & ms & ST & ->). unfold step in ST. rewrite PC in ST. destruct i; cbn [on] in ON; try contradiction; match type of ON with ?e = _ => subst e end; unfold tpsend, tprecv, tpdiscon in ST; rewrite L in ST; injection ST as <- <- <- <-; (split; [reflexivity|]; split; [reflexivity|apply nw_unchanged]).
Qed.
Lemma opened_asks x h i o ev : opened x (h ++ [(x, i, o, ev)]) = fold_left after ev (opened x h).
Proof. rewrite opened_step, Z.eqb_refl. reflexivity. Qed.
(* what a call on a descriptor does to the descriptors of the process *)
Definition keeps_open (o : output) : bool := match o with O_ok | O_received _ _ | O_waits => true | O_error c => (c =? TPEPROTO) || (c =? TPEBLOCK) | _ => false end.
Lemma use_discon l w h x d c f o ev w' : runs l w h -> In (d, c) (opened x h) -> asks x (Tpdiscon d f) w o ev w' -> o <> O_ignored ->
  if fst c =? x then (o = match f with None => O_ok | Some code => O_error code end) /\ ev = [Closed c d] else o = O_error TPEBADDESC /\ ev = [] /\ unchanged w w'.
Proof.
  intros R B A N. pose proof (not_conn _ _ _ _ _ _ d A eq_refl N) as PC. pose proof (runs_reach _ _ _ R) as RR. destruct (open_at l w h x d c RR B PC) as (n & v & -> & AT & VC & CT & L & EV). destruct (asks_step _ _ _ _ _ _ A) as (s & ms & ST & ->). unfold step in ST. rewrite PC in ST. unfold tpdiscon in ST. rewrite L in ST.
  destruct (who w h x c n v (proj1 (r_all _ _ _ RR)) EV) as (t & T & CI & X). destruct X as [X|X].
  - subst x. rewrite Z.eqb_refl. destruct (c_init _ _ _ _ CI n v EV) as [VI _]. rewrite VI in ST. cbn [drop] in ST. rewrite VC in ST. destruct f; injection ST as <- <- <- <-; split; reflexivity.
  - subst x. rewrite (proj2 (Z.eqb_neq (fst c) t)) by (intros E; exact (c_other _ _ _ _ CI (eq_sym E))). destruct (c_sub _ _ _ _ CI n v EV) as [VI _]. rewrite VI in ST. injection ST as <- <- <- <-. split; [reflexivity|]. split; [reflexivity|apply nw_unchanged].
Qed.
Lemma use_only l w h x d c i o ev w' : runs l w h -> In (d, c) (opened x h) -> on i d -> asks x i w o ev w' -> o <> O_ignored ->
  opened x (h ++ [(x, i, o, ev)]) = opened x h \/ (opened x (h ++ [(x, i, o, ev)]) = filter (fun y => negb (fst y =? d)) (opened x h) /\ In (Closed c d) ev).
Proof.
  intros R B ON A N. rewrite opened_asks. pose proof (not_conn _ _ _ _ _ _ d A ON N) as PC. pose proof (runs_reach _ _ _ R) as RR. destruct (open_at l w h x d c RR B PC) as (n & v & -> & AT & VC & CT & L & EV). destruct (asks_step _ _ _ _ _ _ A) as (s & ms & ST & ->). unfold step in ST. rewrite PC in ST. destruct i; cbn [on] in ON; try contradiction; match type of ON with ?e = _ => subst e end; unfold tpsend, tprecv, tpdiscon in ST; rewrite L in ST.
  - destruct (v_dup v); [|injection ST as <- <- <- <-; left; reflexivity]. destruct (take (is_disconnect (v_corr v)) _) as [[m r0]|]; [cbn [drop] in ST; rewrite VC in ST; injection ST as <- <- <- <-; right; split; [reflexivity|left; reflexivity]|]. destruct (take (is_message (v_corr v)) _) as [[m r0]|].
    + cbn [drop] in ST. rewrite VC in ST. destruct (m_body m); try destruct (_ =? TPESVCFAIL); injection ST as <- <- <- <-; right; (split; [reflexivity|]); (left; reflexivity) || (right; left; reflexivity).
    + destruct fails; [cbn [drop] in ST; rewrite VC in ST; injection ST as <- <- <- <-; right; split; [reflexivity|left; reflexivity]|injection ST as <- <- <- <-; left; reflexivity].
  - destruct (v_dup v); [injection ST as <- <- <- <-; left; reflexivity|]. destruct (take (is_disconnect (v_corr v)) _) as [[m r0]|]; [cbn [drop] in ST; rewrite VC in ST; injection ST as <- <- <- <-; right; split; [reflexivity|left; reflexivity]|]. destruct (take (is_message (v_corr v)) _) as [[m r0]|].
    + cbn [drop] in ST. rewrite VC in ST. destruct (m_body m); injection ST as <- <- <- <-; try (right; split; [reflexivity|left; reflexivity]). left. reflexivity.
    + destruct noblock; [injection ST as <- <- <- <-; left; reflexivity|]. destruct sig; [|injection ST as <- <- <- <-; left; reflexivity]. cbn [drop] in ST. rewrite VC in ST. injection ST as <- <- <- <-. right. split; [reflexivity|left; reflexivity].
  - destruct (v_init v); [|injection ST as <- <- <- <-; left; reflexivity]. cbn [drop] in ST. rewrite VC in ST. destruct fails; injection ST as <- <- <- <-; right; (split; [reflexivity|left; reflexivity]).
Qed.
(* tpreturn ends the conversation of the service *)
Lemma use_returns l w h x c ou user data f o ev w' u ou' data' : runs l w h -> asks x (Tpreturn ou user data f) w o ev w' -> In (Back c ou' u data') ev -> o = O_ok /\ (forall d, ~ In (d, c) (opened x (h ++ [(x, Tpreturn ou user data f, o, ev)]))) /\ ou' = ou /\ u = user /\ data' = data.
Proof.
  intros R A B. destruct (asks_step _ _ _ _ _ _ A) as (s & ms & ST & ->). pose proof (runs_reach _ _ _ R) as RR. pose proof (r_all _ _ _ RR) as [IV PO]. rewrite opened_asks. unfold step in ST. destruct (p_conn (w_proc w x)) eqn:PC; [injection ST as _ _ _ <-; destruct B|]. unfold tpreturn in ST. destruct (p_serv (w_proc w x)) as [[[n c0] g]|] eqn:PS; [|injection ST as _ _ _ <-; destruct B].
  assert (MAIN : forall d, In (d, c0) (opened x h) -> d = Z.of_nat n /\ exists v, at_ n (p_descs (w_proc w x)) = Some v). { intros d Q. destruct (open_at l w h x d c0 RR Q PC) as (k & v & -> & AT & VC & _ & _ & EV). destruct (who w h x c0 k v IV EV) as (t & T & CI & X). destruct (c_serv _ _ _ _ CI x n g PS) as (XT & _). subst t. destruct (c_sub _ _ _ _ CI k v EV) as (_ & _ & PS'). rewrite PS in PS'. injection PS' as ->. split; [reflexivity|]. exists v. exact AT. }
  destruct (at_ n (p_descs (w_proc w x))) as [v|] eqn:AT.
  - cbn [drop] in ST. injection ST as _ <- _ <-. cbn [app In] in B. destruct B as [B|[B|[]]]; [discriminate B|]. injection B as -> -> -> ->. split; [reflexivity|]. split; [|auto]. intros d Q. cbn [app fold_left after] in Q. apply in_closed in Q. destruct Q as [Q NE]. destruct (MAIN d Q) as [E _]. contradiction.
  - injection ST as _ <- _ <-. cbn [app In] in B. destruct B as [B|[]]. injection B as -> -> -> ->. split; [reflexivity|]. split; [|auto]. intros d Q. cbn [app fold_left after] in Q. destruct (MAIN d Q) as (_ & v & E). discriminate E.
Qed.
(* what is told, and what has happened, is the same *)
Lemma use_told l w h x d c i o ev w' : runs l w h -> In (d, c) (opened x h) -> on i d -> asks x i w o ev w' ->
  match i, o with
  | Tpsend _ ro data None, O_ok => ev = [Sent c ro data]
  | Tprecv _ _ _ _, O_received so data => ev = [Got c so data true]
  | Tprecv _ _ _ _, O_error code => code = TPEOTYPE \/ (forall g z, ~ In (Got c g z true) ev /\ ~ In (Got c g z false) ev)
  | _, _ => forall v, In v ev -> match v with Closed c' d' => c' = c /\ d' = d | _ => False end
  end.
Proof.
  intros R B ON A. pose proof (runs_reach _ _ _ R) as RR. destruct (asks_step _ _ _ _ _ _ A) as (s & ms & ST & ->). unfold step in ST. destruct (p_conn (w_proc w x)) eqn:PC; [destruct i; cbn [on] in ON; try contradiction; injection ST as <- <- <- <-; try (intros v []); destruct fails; intros v []|].
  destruct (open_at l w h x d c RR B PC) as (n & v & -> & AT & VC & CT & L & EV). pose proof (r_all _ _ _ RR) as [IV PO].
  destruct i; cbn [on] in ON; try contradiction; match type of ON with ?e = _ => subst e end; unfold tpsend, tprecv, tpdiscon in ST; rewrite L in ST.
  - destruct (v_dup v) eqn:DV; [|injection ST as <- <- <- <-; destruct fails; intros v0 []]. cbn [p_inbox w_descs] in ST. destruct (take (is_disconnect (v_corr v)) _) as [[m r0]|]; [cbn [drop] in ST; rewrite VC in ST; injection ST as <- <- <- <-; destruct fails; intros v0 [<-|[]]; auto|]. destruct (take (is_message (v_corr v)) _) as [[m r0]|] eqn:T2.
    + apply take_split in T2. destruct T2 as (a & b & EI & -> & F & NA). unfold is_message in F. rewrite andb_true_iff, corr_eqb_eq in F. destruct F as [MC MB]. cbn [drop] in ST. rewrite VC in ST. destruct (m_body m) as [f0 dup data0| |dup data0|code user0 data0| |] eqn:BD; try discriminate MB.
      * exfalso. apply (never_bad w h x n v a dup data0 b IV AT DV). rewrite EI. f_equal. f_equal. destruct m; cbn in *; congruence.
      * destruct (code =? TPESVCFAIL); injection ST as <- <- <- <-; destruct fails; intros v0 [<-|[]]; auto.
      * injection ST as <- <- <- <-; destruct fails; intros v0 [<-|[]]; auto.
      * injection ST as <- <- <- <-; destruct fails; intros v0 [<-|[]]; auto.
    + destruct fails; [cbn [drop] in ST; rewrite VC in ST; injection ST as <- <- <- <-; intros v0 [<-|[]]; auto|]. injection ST as <- <- <- <-. cbn [v_dup]. rewrite VC. destruct receive_only; reflexivity.
  - destruct (v_dup v); [injection ST as <- <- <- <-; right; intros g z; split; intros []|]. destruct (take (is_disconnect (v_corr v)) _) as [[m r0]|]; [cbn [drop] in ST; rewrite VC in ST; injection ST as <- <- <- <-; intros v0 [<-|[]]; auto|]. destruct (take (is_message (v_corr v)) _) as [[m r0]|].
    + cbn [drop] in ST. rewrite VC in ST. destruct (m_body m); try (injection ST as <- <- <- <-; intros v0 [<-|[]]; auto; fail).
      * destruct mismatch; injection ST as <- <- <- <-; [left; reflexivity|reflexivity].
      * destruct mismatch; [injection ST as <- <- <- <-; left; reflexivity|]. destruct (code =? 0); [injection ST as <- <- <- <-; intros v0 [<-|[]]; auto|]. destruct (code =? TPESVCFAIL); injection ST as <- <- <- <-; intros v0 [<-|[]]; auto.
    + destruct noblock; [injection ST as <- <- <- <-; right; intros g z; split; intros []|]. destruct sig; [|injection ST as <- <- <- <-; intros v0 []]. cbn [drop] in ST. rewrite VC in ST. injection ST as <- <- <- <-. right. intros g z. split; intros [Q|[]]; discriminate Q.
  - destruct (v_init v); [|injection ST as <- <- <- <-; intros v0 []]. cbn [drop] in ST. rewrite VC in ST. destruct fails; injection ST as <- <- <- <-; intros v0 [<-|[]]; auto.
Qed.

