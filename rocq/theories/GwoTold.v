(* The transaction manager knows about the connections that a transaction uses. *)
From Coq Require Import ZArith List Bool Lia.
From Verif Require Import GwoModel GwoSpec GwoProofs GwoInv GwoKeep GwoTight GwoReply GwoWire.
Import ListNotations.
Local Open Scope Z_scope.

Definition tl (s s' : state) (ev : list effect) : Prop :=
  (forall n, In n (s_conns s') -> In n (s_conns s)) /\
  (forall n g, In n (s_conns s') -> (assoc g (c_sock n) (s_assoc s') <-> assoc g (c_sock n) (s_assoc s) \/ In (Involved g (c_ipc n)) ev)) /\
  (forall g c, In (Involved g c) ev -> exists n, In n (s_conns s) /\ c_ipc n = c /\ ~ assoc g (c_sock n) (s_assoc s)) /\
  (forall g c, (count (tells g c) ev <= 1)%nat).
Lemma tells_in g c ev : (count (tells g c) ev > 0)%nat -> In (Involved g c) ev.
Proof.
  intro H. apply count_pos in H as [e [I E]]. destruct e; try discriminate E. cbn in E. apply andb_true_iff in E as [E1 E2].
  apply Z.eqb_eq in E1. apply Z.eqb_eq in E2. now subst.
Qed.
(* also the ones that are closed between: what isn't there afterwards isn't told either *)
Definition alive (s s' : state) (ev : list effect) : Prop := forall g c, In (Involved g c) ev -> In c (ipcs s).
Lemma tl_trans s s1 s2 e1 e2 : wf s -> tl s s1 e1 -> tl s1 s2 e2 -> (e1 = [] \/ e2 = [] \/ (forall g c, ~ In (Involved g c) e1) \/ (forall g c, ~ In (Involved g c) e2)) -> tl s s2 (e1 ++ e2).
Proof.
  intros W [A1 [B1 [C1 D1]]] [A2 [B2 [C2 D2]]] X. split; [auto|]. split; [|split].
  - intros n g I. rewrite (B2 n g I), (B1 n g (A2 n I)), in_app_iff. tauto.
  - intros g c I. apply in_app_or in I as [I|I]; [now apply C1|]. destruct (C2 g c I) as [n [J1 [J2 J3]]]. exists n. split; auto. split; auto. intro H. apply J3. apply (B1 n g J1). auto.
  - intros g c. rewrite count_app. specialize (D1 g c). specialize (D2 g c). destruct (count (tells g c) e1) eqn:E1; [lia|]. destruct (count (tells g c) e2) eqn:E2; [lia|].
    exfalso. assert (I1 : In (Involved g c) e1) by (apply tells_in; lia). assert (I2 : In (Involved g c) e2) by (apply tells_in; lia).
    destruct X as [-> |[-> |[X|X]]]; [destruct I1|destruct I2|eapply X; eauto|eapply X; eauto].
Qed.
Definition quiet (ev : list effect) : Prop := forall g c, ~ In (Involved g c) ev.
Lemma tl_quiet s s' ev : (forall n, In n (s_conns s') -> In n (s_conns s)) -> (forall n g, In n (s_conns s') -> (assoc g (c_sock n) (s_assoc s') <-> assoc g (c_sock n) (s_assoc s))) ->
  quiet ev -> tl s s' ev.
Proof.
  intros A B C. split; auto. split; [|split].
  - intros n g I. rewrite (B n g I). specialize (C g (c_ipc n)). tauto.
  - intros g c I. exfalso. eapply C; eauto.
  - intros g c. destruct (count (tells g c) ev) eqn:E; [lia|]. exfalso. eapply C. apply (tells_in g c). lia.
Qed.
Lemma tl_same s s' ev : s_conns s' = s_conns s -> s_assoc s' = s_assoc s -> quiet ev -> tl s s' ev.
Proof. intros A B C. apply tl_quiet; auto; rewrite A, ?B; auto. tauto. Qed.
Lemma failed_quiet t : quiet (failed t).
Proof. unfold quiet, failed. destruct (q_kind _); cbn; intuition discriminate. Qed.
Lemma unadvertise_quiet f s : quiet (unadvertise f s).
Proof. unfold quiet, unadvertise. destruct (by_sock f s); cbn; intuition discriminate. Qed.
Lemma lost_tl f s : wf s -> sat (lost f s) (fun s' ev => tl s s' ev /\ quiet ev).
Proof.
  intro W. unfold lost. destruct (by_sock f s) as [m|] eqn:B; cbn; auto.
  assert (Q : quiet (unadvertise f s ++ Destroyed (c_ipc m) :: flat_map (fun t => if k_sock t =? f then failed t else []) (s_tasks s))).
  { intros g c I. apply in_app_or in I as [I|[I|I]]; [apply (unadvertise_quiet _ _ _ _ I)|discriminate|]. apply in_flat_map in I as [t [_ I]]. destruct (_ =? _); [apply (failed_quiet _ _ _ I)|destruct I]. }
  split; auto. apply tl_quiet; auto; cbn.
  - intros n I. now apply filter_In in I as [I _].
  - intros n g I. apply filter_In in I as [I N]. apply negb_true_iff, Z.eqb_neq in N. rewrite (dissociate_assoc _ _ _ _ (wf_assoc_ok _ W)). tauto.
Qed.
Lemma send_tl ok f m s : wf s -> sat (send ok f m s) (fun s' ev => tl s s' ev /\ quiet ev).
Proof.
  intro W. unfold send. destruct (by_sock f s).
  - destruct ok.
    + cbn. assert (Q : quiet [ToRemote (c_ipc c) m]) by (intros g x [H|[]]; discriminate). split; auto. now apply tl_same.
    + apply (sat_bind _ _ _ _ (lost_tl f s W)). intros s1 ev [T Q]. cbn. assert (Q1 : quiet [Lost f]) by (intros g x [H|[]]; discriminate).
      split; [|intros g x I; apply in_app_or in I as [I|I]; [eapply Q|eapply Q1]; eauto]. apply (tl_trans _ s1); auto. now apply tl_same.
  - cbn. assert (Q : quiet []) by (intros g x []). split; auto. now apply tl_same.
Qed.
Lemma involve_tl t f s : wf s -> live f s -> sat (involve t f s) (fun s' ev => tl s s' ev /\ s_conns s' = s_conns s /\ forall g b, t = Some (g, b) -> assoc g f (s_assoc s')).
Proof.
  intros W [m [I E]]. unfold involve. destruct t as [[g b]|].
  - destruct (associate g f (s_assoc s)) as [first l] eqn:A. pose proof (associate_first _ _ _ _ _ (wf_assoc_ok _ W) A) as F.
    assert (AS : forall g' f', assoc g' f' l <-> assoc g' f' (s_assoc s) \/ (g' = g /\ f' = f)) by (intros; apply (associate_assoc _ _ _ _ _ _ _ A)).
    assert (BY : by_sock f s = Some m) by (rewrite <- E; apply by_sock_in; [apply W|auto]).
    destruct first.
    + rewrite BY. cbn. split; [|split; auto]; [|intros g0 b0 H; injection H as <- _; apply AS; auto]. split; [auto|]. split; [|split].
      * intros n g' J. cbn in *. rewrite AS. split.
        -- intros [H|[-> H]]; auto. right. left. f_equal. f_equal. apply (same_sock s); [apply W|auto|auto|congruence].
        -- intros [H|[H|[]]]; auto. injection H as <- H. right. split; auto. rewrite <- (same_ipc s m n); auto. apply W.
      * intros g' c [H|[]]. injection H as <- <-. exists m. split; auto. split; auto. rewrite E. now apply F.
      * intros g' c. cbn. destruct (_ && _); lia.
    + cbn. assert (H0 : assoc g f (s_assoc s)).
      { assert (D : {assoc g f (s_assoc s)} + {~ assoc g f (s_assoc s)}).
        { assert (X : existsb (fun e => (fst e =? g) && existsb (Z.eqb f) (snd e)) (s_assoc s) = true <-> assoc g f (s_assoc s)).
          { rewrite existsb_exists. split.
            - intros [[h fs] [J K]]. cbn in K. apply andb_true_iff in K as [K1 K2]. apply Z.eqb_eq in K1. apply existsb_eqb in K2. subst. exists fs. auto.
            - intros [fs [J K]]. exists (g, fs). cbn. rewrite Z.eqb_refl. split; auto. cbn. now apply existsb_eqb. }
          destruct (existsb (fun e : Z * list Z => (fst e =? g) && existsb (Z.eqb f) (snd e)) (s_assoc s)); [left; now apply X|right; intro Y; apply X in Y; discriminate]. }
        destruct D as [D|D]; auto. apply F in D. discriminate. }
      split; [|split; auto]; [|intros g0 b0 H; injection H as <- _; apply AS; auto]. apply tl_quiet; cbn; auto; [|intros g' c []].
      intros n g' J. rewrite AS. split; [intros [H|[-> ->]]; auto|auto].
  - cbn. split; [|split; auto; discriminate]. apply tl_same; auto. intros g c [].
Qed.
(* what a request does to it *)
Definition tlq (q : request) (n : conn) (s s' : state) (ev : list effect) : Prop :=
  tl s s' ev /\ forall g b, q_trid q = Some (g, b) -> In n (s_conns s') -> assoc g (c_sock n) (s_assoc s').
Lemma tl_from s0 s s' ev : s_conns s = s_conns s0 -> s_assoc s = s_assoc s0 -> tl s s' ev -> tl s0 s' ev.
Proof. intros A B. unfold tl. rewrite A, B. auto. Qed.
Lemma request_tl ok n q s : wf s -> In n (s_conns s) -> (ok = false -> q_kind q = Call \/ q_kind q = Connect) ->
  looped s q (inward_step ok n (InRequest q) s) \/ sat (inward_step ok n (InRequest q) s) (tlq q n s).
Proof.
  intros W I O. assert (L : live (c_sock n) s) by (exists n; auto).
  assert (W1 : wf (add_task (c_sock n) q s)) by now apply add_task_wf.
  assert (FIRST : forall v, sat (bind (involve (q_trid q) (c_sock n) (add_task (c_sock n) q s)) (fun s => send ok (c_sock n) (WRequest v q) s)) (tlq q n s)).
  { intro v. pose proof (involve_good (q_trid q) (c_sock n) _ W1) as G. pose proof (involve_tl (q_trid q) (c_sock n) _ W1 L) as T.
    destruct (involve (q_trid q) (c_sock n) (add_task (c_sock n) q s)) as [s1 ev| |]; try exact Logic.I. cbn in G, T. destruct G as [W2 _]. destruct T as [T1 [T2 T3]].
    apply (sat_bind (Done s1 ev) _ _ (fun s ev0 => s = s1 /\ ev0 = ev)); [cbn; auto|]. intros s2 ev0 [-> ->].
    apply (sat_weaken _ _ _ (send_tl ok (c_sock n) (WRequest v q) s1 W2)). intros s3 ev3 [T4 Q]. split.
    - apply (tl_trans _ s1); auto.
    - intros g b E J. apply T4; auto. left. apply (T3 g b E). }
  assert (LAST : sat (involve (q_trid q) (c_sock n) (add_task (c_sock n) q s)) (fun s' ev => tlq q n s s' (ToRemote (c_ipc n) (WRequest false q) :: ev))).
  { apply (sat_weaken _ _ _ (involve_tl (q_trid q) (c_sock n) _ W1 L)). intros s1 ev [T1 [T2 T3]]. split.
    - apply (tl_trans s s _ [_] ev); auto.
      + apply tl_same; auto. intros g c [H|[]]; discriminate.
      + right; right; left. intros g c [H|[]]; discriminate.
    - intros g b E _. apply (T3 g b E). }
  assert (SENDS : send true (c_sock n) (WRequest false q) s = Done s [ToRemote (c_ipc n) (WRequest false q)]) by (unfold send; now rewrite (by_sock_in s n (wf_sock _ W) I)).
  cbn -[sat]. destruct (q_kind q) eqn:K.
  - unfold call_request. destruct (has_corr _ _) eqn:H; [left; repeat split; auto|]. right. destruct (c_old n); [apply FIRST|].
    destruct ok; [rewrite SENDS|destruct (send false (c_sock n) (WRequest false q) s); exact Logic.I]. cbn -[involve]. destruct (involve _ _ _); auto.
  - right. destruct ok; [|destruct (O eq_refl); discriminate]. unfold queue_request. rewrite SENDS. cbn -[involve]. destruct (involve _ _ _); auto.
  - right. destruct ok; [|destruct (O eq_refl); discriminate]. unfold queue_request. rewrite SENDS. cbn -[involve]. destruct (involve _ _ _); auto.
  - right. unfold connect_request. apply FIRST.
Qed.
Lemma add_dest_assoc k p f s : s_assoc (add_dest k p f s) = s_assoc s.
Proof. unfold add_dest. destruct (existsb _ _); reflexivity. Qed.
Lemma inward_tl ok n m s : wf s -> In n (s_conns s) -> (forall q, m <> InRequest q) -> sat (inward_step ok n m s) (tl s).
Proof.
  intros W I N. destruct m as [q|k data|k|r k p t data|k p data|data]; cbn -[sat].
  - exfalso. eapply N; reflexivity.
  - apply (sat_weaken _ _ _ (send_tl _ _ _ _ W)). tauto.
  - unfold disconnect_conversation. assert (Z0 : sat (emit s []) (tl s)) by (apply tl_same; auto; intros g c []). destruct (first_task k s) as [t|]; auto. destruct (q_kind (k_request t)); auto.
    destruct (by_sock (k_sock t) s) eqn:B; [|apply tl_same; auto; intros g c [H|[]]; discriminate].
    unfold send. rewrite B. destruct ok; [|destruct (bind _ _); exact Logic.I]. apply tl_same; auto. intros g c0 [H|[H|[]]]; discriminate.
  - apply (sat_weaken _ _ _ (send_tl _ _ _ _ (add_dest_wf k p n s W I))). intros s' ev [T _]. apply (tl_from _ _ _ _ (add_dest_conns k p (c_sock n) s) (add_dest_assoc k p (c_sock n) s) T).
  - destruct (s_down s); [apply tl_same; auto; intros g c [H|[]]; discriminate|]. destruct (is_leaving _ _); [apply tl_same; auto; intros g c [H|[]]; discriminate|].
    apply (sat_weaken _ _ _ (send_tl _ _ _ _ (add_dest_wf k p n s W I))). intros s' ev [T _]. apply (tl_from _ _ _ _ (add_dest_conns k p (c_sock n) s) (add_dest_assoc k p (c_sock n) s) T).
  - destruct (s_down s); [apply tl_same; auto; intros g c []|]. destruct (is_leaving _ _); [apply tl_same; auto; intros g c []|].
    apply (sat_weaken _ _ _ (send_tl _ _ _ _ W)). tauto.
Qed.
Lemma leave_tl x n s : sat (leave x (c_sock n) s) (fun s' ev => tl s s' ev /\ quiet ev).
Proof. cbn. split; [apply tl_same; auto|]; apply unadvertise_quiet. Qed.
Lemma outward_tl ok n m s : wf s -> In n (s_conns s) -> sat (outward_step ok n m s) (tl s).
Proof.
  intros W I. assert (Z0 : sat (emit s []) (tl s)) by (apply tl_same; auto; intros g c []).
  destruct m as [nk k code data|k x data|r k data|k ss qs data|k]; cbn -[sat leave take_dest].
  - unfold task_reply. destruct (first_task k s) as [t|]; auto. destruct (kind_eqb _ nk); auto.
    assert (U : quiet (if code =? TPENOENT then unadvertise_service (k_sock t) (q_name (k_request t)) s else [])).
    { intros g c. destruct (code =? TPENOENT); [|auto]. unfold unadvertise_service. destruct (by_sock _ s); cbn; intuition discriminate. }
    destruct nk; cbn -[TPENOENT]; apply tl_same; auto; intros g c J; cbn -[TPENOENT] in J; rewrite ?in_app_iff in J; cbn -[TPENOENT] in J; specialize (U g c); intuition discriminate.
  - unfold task_send. destruct (first_task k s) as [t|]; auto. destruct (q_kind _); auto. cbn. destruct x; apply tl_same; auto; intros g c [H|[]]; discriminate.
  - cbn. apply tl_same; auto. intros g c H. destruct (find _ _); cbn in H; intuition discriminate.
  - cbn. apply tl_same; auto. intros g c H. rewrite !in_app_iff in H. destruct (find _ _), ss, qs; cbn in H; intuition discriminate.
  - pose proof (leave_good true n s W I) as G. apply (sat_bind _ _ _ (fun s' ev => (tl s s' ev /\ quiet ev) /\ wf s')); [cbn; split; [apply (leave_tl true n s)|apply G]|].
    intros s1 ev [[T Q] W1]. apply (sat_weaken _ _ _ (send_tl ok (c_sock n) _ s1 W1)). intros s2 ev2 [T2 Q2]. apply (tl_trans _ s1); auto.
Qed.
Lemma close_all_tl l s : wf s -> sat (close_all l s) (fun s' ev => tl s s' ev /\ quiet ev).
Proof.
  revert s. induction l as [|[f x] l IH]; intros s W; cbn -[sat].
  - split; [apply tl_same; auto|]; intros g c [].
  - apply (sat_bind _ _ _ (fun s' ev => (tl s s' ev /\ quiet ev) /\ wf s')).
    + pose proof (lost_tl f s W) as A. pose proof (lost_good f s W) as B. destruct (lost f s) as [s1 e1| |]; auto. cbn in *. destruct A as [A1 A2].
      assert (Q1 : quiet (if x then [Lost f] else [])) by (intros g c H; destruct x; cbn in H; intuition discriminate).
      split; [split|apply B].
      * apply (tl_trans _ s1); auto. apply tl_same; auto.
      * intros g c I. apply in_app_or in I as [I|I]; [eapply A2|eapply Q1]; eauto.
    + intros s1 e1 [[T Q] W1]. apply (sat_weaken _ _ _ (IH s1 W1)). intros s2 e2 [T2 Q2]. split; [apply (tl_trans _ s1); auto|].
      intros g c I. apply in_app_or in I as [I|I]; [eapply Q|eapply Q2]; eauto.
Qed.
Lemma leave_all_quiet l s : sat (leave_all l s) (fun _ ev => quiet ev).
Proof.
  revert s. induction l as [|n l IH]; intro s; cbn -[sat leave]; [intros g c []|].
  apply (sat_bind _ _ _ (fun _ ev => quiet ev)); [apply unadvertise_quiet|]. intros s1 e1 Q. apply (sat_weaken _ _ _ (IH s1)). intros s2 e2 Q2.
  intros g c I. apply in_app_or in I as [I|I]; [eapply Q|eapply Q2]; eauto.
Qed.
Lemma step_tl i s : wf s -> orderly_input i -> match i with Connected _ _ _ | Disassociate _ => False | _ => True end -> sat (step i s) (tl s).
Proof.
  intros W O N. assert (Z0 : sat (Done s []) (tl s)) by (apply tl_same; auto; intros g c []).
  destruct i as [f c old|c ok m|c ok m|c|g|c| |]; cbn -[sat leave shutdown idle inward_step outward_step]; try contradiction.
  - destruct (by_ipc c s) as [n|] eqn:E; auto. apply by_ipc_some in E as [E _]. destruct (match m with InRequest _ => true | _ => false end) eqn:M.
    + destruct m as [q| | | | |]; try discriminate M. cbn in O. destruct (request_tl ok n q s W E) as [[_ [_ L]]|T].
      * intros ->. exact O.
      * rewrite L. apply tl_same; auto. intros g x [H|[H|[]]]; discriminate.
      * apply (sat_weaken _ _ _ T). intros s' ev [T1 _]. exact T1.
    + apply inward_tl; auto. intros q ->. discriminate.
  - destruct (by_ipc c s) as [n|] eqn:E; auto. apply by_ipc_some in E as [E _]. now apply outward_tl.
  - destruct (by_ipc c s) as [n|] eqn:E; auto. apply (sat_bind _ _ _ _ (lost_tl (c_sock n) s W)). intros s1 e1 [T Q]. cbn. apply (tl_trans _ s1); auto.
    apply tl_same; auto. intros g x [H|[]]; discriminate.
  - destruct (by_ipc c s) as [n|] eqn:E; auto. apply (sat_weaken _ _ _ (leave_tl false n s)). tauto.
  - unfold shutdown. pose proof (leave_all_quiet (s_conns s) (State (s_conns s) (s_tasks s) (s_dests s) (s_assoc s) (s_leaving s) true)) as Q.
    pose proof (leave_all_kept (s_conns s) (State (s_conns s) (s_tasks s) (s_dests s) (s_assoc s) (s_leaving s) true)) as K.
    destruct (leave_all _ _); auto. cbn in *. apply tl_same; auto; apply K.
  - apply (sat_weaken _ _ _ (close_all_tl _ s W)). tauto.
Qed.

Lemma told_snoc g c h i ev : told g c (h ++ [(i, ev)]) = told_after g c (told g c h) (i, ev).
Proof. unfold told. now rewrite fold_left_app. Qed.
Lemma existsb_tells g c ev : existsb (tells g c) ev = true <-> In (Involved g c) ev.
Proof.
  rewrite existsb_exists. split.
  - intros [e [I E]]. destruct e; try discriminate E. cbn in E. apply andb_true_iff in E as [E1 E2]. apply Z.eqb_eq in E1. apply Z.eqb_eq in E2. now subst.
  - intro I. exists (Involved g c). split; auto. cbn. now rewrite !Z.eqb_refl.
Qed.
Lemma never_told g c h : (forall ev, ~ (exists i, In (i, ev) h /\ In (Involved g c) ev)) -> told g c h = false.
Proof.
  induction h as [|[i ev] h IH] using rev_ind; intro H; [reflexivity|]. rewrite told_snoc, IH.
  - unfold told_after. cbn. assert (X : existsb (tells g c) ev = false).
    { destruct (existsb (tells g c) ev) eqn:E; auto. apply existsb_tells in E. exfalso. apply (H ev). exists i. rewrite in_app_iff. cbn. auto. }
    rewrite X. destruct i; cbn; auto. now destruct (_ =? _).
  - intros ev0 [i0 [I J]]. apply (H ev0). exists i0. rewrite in_app_iff. auto.
Qed.
Record known (s : state) (h : history) : Prop := {
  kn_told : forall n g, In n (s_conns s) -> (told g (c_ipc n) h = true <-> assoc g (c_sock n) (s_assoc s));
  kn_conn : forall g c, In (Involved g c) (effects h) -> connected c h
}.
Lemma reach_known s h : reach s h -> orderly h -> known s h.
Proof.
  induction 1 as [|s h i s' ev R IH P E]; intro O; [split; cbn; [tauto|unfold effects; cbn; tauto]|].
  apply orderly_snoc in O as [O1 O2]. destruct (IH O1) as [KT KC]. destruct (reach_tight s h R O1) as [T _]. pose proof (reach_inv s h R) as [W _ OP _].
  assert (CM : forall c, connected c h -> connected c (h ++ [(i, ev)])) by (intros c [f [o H]]; exists f, o; rewrite inputs_snoc; apply in_or_app; auto).
  destruct (match i with Connected _ _ _ | Disassociate _ => true | _ => false end) eqn:NC.
  - destruct i as [f c old| | | |g0| | |]; try discriminate NC.
    + cbn in E. injection E as <- <-. cbn in P. destruct P as [P1 P2]. split.
      * cbn. intros n g J. rewrite told_snoc. unfold told_after. cbn. rewrite orb_false_r. apply in_app_or in J as [J|[<- |[]]]; [now apply KT|]. cbn. split.
        -- intro H. exfalso. rewrite never_told in H; [discriminate|]. intros ev [j [I1 I2]]. destruct (KC g c) as [f' [o' I3]]; [unfold effects; apply in_flat_map; exists (j, ev); auto|].
           apply inputs_in in I3 as [ev' I3]. apply (P2 _ _ _ I3).
        -- intros [fs [I1 I2]]. exfalso. destruct (ti_assoc _ T g fs f I1 I2) as [m [J1 J2]]. apply (P1 m J1 J2).
      * intros g x. rewrite effects_snoc, in_app_iff. intros [H|[H|[]]]; [|discriminate]. apply CM, (KC g x H).
    + cbn in E. injection E as <- <-. split.
      * cbn. intros n g J. rewrite told_snoc. unfold told_after. cbn. rewrite orb_false_r. assert (X : assoc g (c_sock n) (filter (fun e => negb (fst e =? g0)) (s_assoc s)) <-> assoc g (c_sock n) (s_assoc s) /\ g <> g0).
        { split; [intros [fs [I1 I2]]; apply filter_In in I1 as [I1 I3]; cbn in I3; apply negb_true_iff, Z.eqb_neq in I3; split; auto; exists fs; auto|].
          intros [[fs [I1 I2]] Ne]. exists fs. split; auto. apply filter_In. split; auto. cbn. apply negb_true_iff, Z.eqb_neq; auto. }
        rewrite X. destruct (Z.eqb_spec g0 g) as [-> |Ne]; [split; [discriminate|tauto]|]. rewrite (KT n g J). intuition.
      * intros g x. rewrite effects_snoc, in_app_iff. intros [H|[]]. apply CM, (KC g x H).
  - assert (NI : match i with Connected _ _ _ | Disassociate _ => False | _ => True end) by (destruct i; auto; discriminate).
    pose proof (sat_done _ _ _ _ E (step_tl i s W O2 NI)) as [A [B [C D]]]. split.
    + intros n g J. rewrite told_snoc. unfold told_after. rewrite (B n g J). cbn [fst snd]. rewrite orb_true_iff, existsb_tells, <- (KT n g (A n J)). destruct i; tauto.
    + intros g x. rewrite effects_snoc, in_app_iff. intros [H|H]; [apply CM, (KC g x H)|]. destruct (C g x H) as [n [J1 [<- _]]]. apply CM. apply OP. now apply in_map.
Qed.

(* ---- what is relied on ---- *)
Lemma involved_when_sent h c ok q ev v g b : happens (h ++ [(Inward c ok (InRequest q), ev)]) -> orderly (h ++ [(Inward c ok (InRequest q), ev)]) ->
  q_trid q = Some (g, b) -> In (ToRemote c (WRequest v q)) ev -> told g c (h ++ [(Inward c ok (InRequest q), ev)]) = true.
Proof.
  intros H O E J. destruct (happens_snoc _ _ _ H) as [s [s' [R [P [S R']]]]]. pose proof (orderly_snoc _ _ _ O) as [O1 O2].
  pose proof (reach_inv s h R) as [W _ OP _]. pose proof (wire_cause _ _ _ _ _ H J) as WC. cbn in WC. injection WC as ->.
  cbn -[inward_step] in S. destruct (by_ipc_in c s P) as [n B]. rewrite B in S. apply by_ipc_some in B as [B1 B2].
  assert (IS : s_conns s' = s_conns s /\ looped s q (inward_step true n (InRequest q) s) \/ sat (inward_step true n (InRequest q) s) (tlq q n s)).
  { destruct (request_tl true n q s W B1) as [L|T]; [discriminate| |auto]. left. split; auto. destruct L as [_ [_ L]]. rewrite L in S. now injection S as <- _. }
  destruct IS as [[_ [_ [_ L]]]|T]; [exfalso; rewrite L in S; injection S as _ <-; cbn in J; intuition discriminate|].
  pose proof (sat_done _ _ _ _ S T) as [T1 T2]. pose proof (reach_inv _ _ R') as [W' _ OP' _].
  assert (J' : In n (s_conns s')).
  { destruct (in_dec Z.eq_dec c (ipcs s')) as [I|I].
    - apply in_map_iff in I as [m [M1 M2]]. rewrite (same_ipc s n m); auto; [apply W|apply T1; auto|congruence].
    - exfalso. assert (D : In (Destroyed c) ev).
      { assert (N : forall f x old, Inward c true (InRequest q) <> Connected f x old) by discriminate.
        assert (S2 : step (Inward c true (InRequest q)) s = Done s' ev) by (cbn -[inward_step]; destruct (by_ipc_in c s P) as [m B3]; rewrite B3; apply by_ipc_some in B3 as [B3 B4]; rewrite (same_ipc s m n); auto; [apply W|congruence]).
        pose proof (sat_done _ _ _ _ S2 (step_good _ s W N)) as [_ [_ D]]. apply D. split; auto. }
      (* a send that works closes nothing *)
      clear - S D B1 W. revert D.
      assert (X : sat (inward_step true n (InRequest q) s) (fun _ ev => forall x, ~ In (Destroyed x) ev)).
      { assert (CI : forall t f s, sat (involve t f s) (fun s' ev => (forall x, ~ In (Destroyed x) ev) /\ s_conns s' = s_conns s)).
        { intros t f s0. unfold involve. destruct t as [[g b]|]; [|cbn; auto]. destruct (associate _ _ _) as [first l]. destruct first; [destruct (by_sock f s0)|]; cbn; split; auto; intros x H; intuition discriminate. }
        assert (CS : forall w s1, s_conns s1 = s_conns s -> send true (c_sock n) w s1 = Done s1 [ToRemote (c_ipc n) w]).
        { intros w s1 E1. unfold send. rewrite (by_sock_in s1 n); auto; rewrite E1; auto. apply W. }
        cbn -[sat]. destruct (q_kind q).
        - unfold call_request. destruct (has_corr _ _); [cbn; intros x H; intuition discriminate|]. destruct (c_old n).
          + apply (sat_bind _ _ _ _ (CI _ _ _)). intros s1 e1 [H1 E1]. rewrite CS by (rewrite E1; auto). cbn. intros x. rewrite in_app_iff. cbn. intros [H|[H|[]]]; [apply (H1 _ H)|discriminate].
          + rewrite CS by auto. cbn -[involve]. pose proof (CI (q_trid q) (c_sock n) (add_task (c_sock n) q s)) as Q. destruct (involve _ _ _); auto. cbn in *. destruct Q as [Q _]. intros x [H|H]; [discriminate|apply (Q _ H)].
        - unfold queue_request. rewrite CS by auto. cbn -[involve]. pose proof (CI (q_trid q) (c_sock n) (add_task (c_sock n) q s)) as Q. destruct (involve _ _ _); auto. cbn in *. destruct Q as [Q _]. intros x [H|H]; [discriminate|apply (Q _ H)].
        - unfold queue_request. rewrite CS by auto. cbn -[involve]. pose proof (CI (q_trid q) (c_sock n) (add_task (c_sock n) q s)) as Q. destruct (involve _ _ _); auto. cbn in *. destruct Q as [Q _]. intros x [H|H]; [discriminate|apply (Q _ H)].
        - unfold connect_request. apply (sat_bind _ _ _ _ (CI _ _ _)). intros s1 e1 [H1 E1]. rewrite CS by (rewrite E1; auto). cbn. intros x. rewrite in_app_iff. cbn. intros [H|[H|[]]]; [apply (H1 _ H)|discriminate]. }
      apply (sat_done _ _ _ _ S X). }
  clear - B2 J' R' O T2 E. subst c. apply (kn_told _ _ (reach_known _ _ R' O) n g J'). apply (T2 g b E J').
Qed.
Lemma involved_once h i ev g c : happens (h ++ [(i, ev)]) -> orderly (h ++ [(i, ev)]) -> In (Involved g c) ev -> told g c h = false /\ count (tells g c) ev = 1%nat /\ open c h.
Proof.
  intros H O J. destruct (happens_snoc _ _ _ H) as [s [s' [R [P [S R']]]]]. pose proof (orderly_snoc _ _ _ O) as [O1 O2].
  pose proof (reach_inv s h R) as [W _ OP _]. pose proof (reach_known _ _ R O1) as [KT _].
  assert (NI : match i with Connected _ _ _ | Disassociate _ => False | _ => True end).
  { destruct i; auto; cbn in S; injection S as _ <-; cbn in J; intuition discriminate. }
  pose proof (sat_done _ _ _ _ S (step_tl i s W O2 NI)) as [A [B [C D]]]. destruct (C g c J) as [n [J1 [<- J2]]]. split; [|split].
  - destruct (told g (c_ipc n) h) eqn:E; auto. exfalso. apply J2. now apply KT.
  - specialize (D g (c_ipc n)). assert (count (tells g (c_ipc n)) ev <> 0)%nat; [|lia]. intro Z0. pose proof (count_zero_inv _ _ _ Z0 J) as Y. cbn in Y. rewrite !Z.eqb_refl in Y. discriminate.
  - apply OP. now apply in_map.
Qed.
Lemma told_kept g c h1 h2 : told g c h1 = true -> (forall ev, ~ In (Disassociate g, ev) h2) -> told g c (h1 ++ h2) = true.
Proof.
  intros H N. revert N. induction h2 as [|[i ev] h2 IH] using rev_ind; intro N; [now rewrite app_nil_r|]. rewrite app_assoc, told_snoc. unfold told_after. rewrite IH by (intros e I; apply (N e), in_or_app; auto).
  cbn. destruct i; cbn; auto. destruct (Z.eqb_spec g0 g) as [-> |]; auto. exfalso. apply (N ev). apply in_or_app. cbn; auto.
Qed.
Lemma happens_prefix h1 h2 : happens (h1 ++ h2) -> happens h1.
Proof.
  induction h2 as [|[i ev] h2 IH] using rev_ind; [now rewrite app_nil_r|]. rewrite app_assoc. intro H. destruct (happens_snoc _ _ _ H) as [s [_ [R _]]]. apply IH. exists s; auto.
Qed.
Lemma orderly_prefix h1 h2 : orderly (h1 ++ h2) -> orderly h1.
Proof. unfold orderly. rewrite inputs_app. setoid_rewrite in_app_iff. intros H c q I. apply (H c q); auto. Qed.
Lemma involved_after h1 h2 c ok q ev v g b : happens (h1 ++ (Inward c ok (InRequest q), ev) :: h2) -> orderly (h1 ++ (Inward c ok (InRequest q), ev) :: h2) ->
  q_trid q = Some (g, b) -> In (ToRemote c (WRequest v q)) ev -> (forall e, ~ In (Disassociate g, e) h2) -> told g c (h1 ++ (Inward c ok (InRequest q), ev) :: h2) = true.
Proof.
  change (h1 ++ (Inward c ok (InRequest q), ev) :: h2) with (h1 ++ [(Inward c ok (InRequest q), ev)] ++ h2). rewrite app_assoc. intros H O E J N.
  apply told_kept; auto. apply (involved_when_sent _ _ _ _ _ v g b); auto; [now apply happens_prefix in H|now apply orderly_prefix in O].
Qed.
