(* The invariant is kept. *)
From Coq Require Import ZArith List Bool Lia.
From Verif Require Import GwoModel GwoSpec GwoProofs GwoInv.
Import ListNotations.
Local Open Scope Z_scope.

Definition good (s s' : state) (ev : list effect) : Prop := wf s' /\ closing s s' ev.
Lemma good_trans s s1 s2 e1 e2 : good s s1 e1 -> good s1 s2 e2 -> good s s2 (e1 ++ e2).
Proof. intros [W1 C1] [W2 C2]. split; auto. eapply closing_trans; eauto. Qed.
Lemma sat_good_bind r f s : sat r (good s) -> (forall s1, wf s1 -> sat (f s1) (good s1)) -> sat (bind r f) (good s).
Proof.
  intros H K. apply (sat_bind _ _ _ _ H). intros s1 ev G. apply (sat_weaken _ _ _ (K s1 (proj1 G))). intros s2 ev2 G2. apply (good_trans _ _ _ _ _ G G2).
Qed.
Lemma wf_same s s' : wf s -> s_conns s' = s_conns s -> s_dests s' = s_dests s -> s_assoc s' = s_assoc s -> s_leaving s' = s_leaving s -> wf s'.
Proof.
  intros [A B C D E F] H1 H2 H3 H4. constructor; unfold ipcs, live in *; rewrite ?H1, ?H2, ?H3, ?H4; auto.
Qed.
Lemma good_same s s' ev : wf s -> s_conns s' = s_conns s -> s_dests s' = s_dests s -> s_assoc s' = s_assoc s -> s_leaving s' = s_leaving s ->
  (forall c, ~ In (Destroyed c) ev) -> good s s' ev.
Proof. intros W H1 H2 H3 H4 H. split; [apply (wf_same s); auto|now apply closing_refl]. Qed.

Lemma live_filter f g s s' : s_conns s' = filter (fun n => negb (c_sock n =? f)) (s_conns s) -> live g s -> g <> f -> live g s'.
Proof.
  intros E [n [I F]] N. exists n. split; auto. rewrite E. apply filter_In. split; auto. apply negb_true_iff, Z.eqb_neq. congruence.
Qed.
Lemma lost_good f s : wf s -> sat (lost f s) (good s).
Proof.
  intro W. pose proof (lost_closing f s W) as C. destruct (lost f s) as [s' ev| |] eqn:E; cbn in *; auto. split; auto.
  unfold lost in E. destruct (by_sock f s); [|discriminate]. injection E as <- _. destruct W as [A B C0 D K F].
  assert (AO : assoc_ok (s_assoc s)) by (split; auto). apply (dissociate_ok f) in AO. destruct AO as [A1 A2].
  constructor; cbn; auto; try now apply NoDup_filter'.
  - intros l I. apply filter_In in I as [I N]. apply negb_true_iff, Z.eqb_neq in N. eapply live_filter; [reflexivity|apply (C0 l I)|auto].
  - intros d I. apply filter_In in I as [I N]. apply negb_true_iff, Z.eqb_neq in N. eapply live_filter; [reflexivity|apply (D d I)|auto].
Qed.
Lemma send_good ok f m s : wf s -> sat (send ok f m s) (good s).
Proof.
  intro W. unfold send. destruct (by_sock f s); [|cbn; apply good_same; auto]. destruct ok.
  - cbn. apply good_same; auto. intros x [H|[]]; discriminate.
  - apply sat_good_bind; [now apply lost_good|]. intros s1 W1. cbn. apply good_same; auto. intros x [H|[]]; discriminate.
Qed.
Lemma involve_good t f s : wf s -> sat (involve t f s) (good s).
Proof.
  intro W. unfold involve. destruct t as [[g b]|]; [|cbn; apply good_same; auto].
  destruct (associate g f (s_assoc s)) as [first l] eqn:E.
  assert (W' : wf (State (s_conns s) (s_tasks s) (s_dests s) l (s_leaving s) (s_down s))).
  { destruct W as [A B C D K F]. assert (AO : assoc_ok (s_assoc s)) by (split; auto). destruct (associate_ok _ _ _ _ _ AO E). constructor; cbn; auto. }
  destruct first; [destruct (by_sock f s)|]; cbn; split; auto; apply closing_refl; auto; cbn; intros ? H; intuition discriminate.
Qed.
Lemma add_task_wf f q s : wf s -> wf (add_task f q s).
Proof. intro W. apply (wf_same s); auto. Qed.
Lemma good_from s0 s s' ev : s_conns s = s_conns s0 -> good s s' ev -> good s0 s' ev.
Proof. intros E [W C]. split; auto. unfold closing, ipcs in *. rewrite <- E. exact C. Qed.
Lemma sat_from s0 s r : s_conns s = s_conns s0 -> sat r (good s) -> sat r (good s0).
Proof. intros E H. apply (sat_weaken _ _ _ H). intros s' ev. now apply good_from. Qed.

Lemma call_good ok n q s : wf s -> sat (call_request ok n q s) (good s).
Proof.
  intro W. unfold call_request. destruct (has_corr _ _).
  - cbn. apply good_same; auto. cbn; intros ? H; intuition discriminate.
  - destruct (c_old n).
    + apply sat_good_bind; [|intros s1 W1; now apply send_good].
      apply (sat_from s (add_task (c_sock n) q s)); auto. apply involve_good. now apply add_task_wf.
    + pose proof (send_good ok (c_sock n) (WRequest false q) s W) as G. destruct (send ok (c_sock n) (WRequest false q) s) as [s1 ev| |]; try exact I.
      destruct ok; [|exact I]. apply (sat_good_bind (Done s1 ev)); [exact G|]. intros s2 W2.
      apply (sat_from s2 (add_task (c_sock n) q s2)); auto. apply involve_good. now apply add_task_wf.
Qed.
Lemma queue_good ok n q s : wf s -> sat (queue_request ok n q s) (good s).
Proof.
  intro W. unfold queue_request. apply sat_good_bind; [now apply send_good|]. intros s2 W2.
  apply (sat_from s2 (add_task (c_sock n) q s2)); auto. apply involve_good. now apply add_task_wf.
Qed.
Lemma connect_good ok n q s : wf s -> sat (connect_request ok n q s) (good s).
Proof.
  intro W. unfold connect_request. apply sat_good_bind; [|intros s1 W1; now apply send_good].
  apply (sat_from s (add_task (c_sock n) q s)); auto. apply involve_good. now apply add_task_wf.
Qed.
Lemma add_dest_wf k p n s : wf s -> In n (s_conns s) -> wf (add_dest k p (c_sock n) s).
Proof.
  intros W I. unfold add_dest. destruct (existsb _ _); auto. destruct W as [A B C D K F]. constructor; cbn; auto.
  intros d H. apply in_app_or in H as [H|[<- |[]]]; [apply (D d H)|]. exists n. auto.
Qed.
Lemma add_dest_conns k p f s : s_conns (add_dest k p f s) = s_conns s.
Proof. unfold add_dest. destruct (existsb _ _); reflexivity. Qed.
Lemma disconnect_good ok k s : wf s -> sat (disconnect_conversation ok k s) (good s).
Proof.
  intro W. unfold disconnect_conversation. assert (N : sat (emit s []) (good s)) by (cbn; apply good_same; auto).
  destruct (first_task k s) as [t|]; auto. destruct (q_kind (k_request t)); auto.
  destruct (by_sock (k_sock t) s) eqn:B.
  - unfold send. rewrite B. destruct ok; [|destruct (bind _ _); exact I]. cbn. apply good_same; auto. cbn; intros ? H; intuition discriminate.
  - cbn. apply good_same; auto. cbn; intros ? H; intuition discriminate.
Qed.
Lemma inward_good ok n m s : wf s -> In n (s_conns s) -> sat (inward_step ok n m s) (good s).
Proof.
  intros W I. destruct m as [q|k data|k|r k from t data|k from data|data]; cbn -[sat].
  - destruct (q_kind q); [now apply call_good|now apply queue_good|now apply queue_good|now apply connect_good].
  - now apply send_good.
  - now apply disconnect_good.
  - apply (sat_from s (add_dest k from (c_sock n) s)); [apply add_dest_conns|]. apply send_good. now apply add_dest_wf.
  - destruct (s_down s); [cbn; apply good_same; auto; cbn; intros ? H; intuition discriminate|].
    destruct (is_leaving _ _); [cbn; apply good_same; auto; cbn; intros ? H; intuition discriminate|].
    apply (sat_from s (add_dest k from (c_sock n) s)); [apply add_dest_conns|]. apply send_good. now apply add_dest_wf.
  - destruct (s_down s); [cbn; apply good_same; auto|].
    destruct (is_leaving _ _); [cbn; apply good_same; auto|]. now apply send_good.
Qed.
Lemma unadvertise_destroyed f s c : ~ In (Destroyed c) (unadvertise f s).
Proof. unfold unadvertise. destruct (by_sock f s); cbn; intuition discriminate. Qed.
Lemma unadvertise_service_destroyed f x s c : ~ In (Destroyed c) (unadvertise_service f x s).
Proof. unfold unadvertise_service. destruct (by_sock f s); cbn; intuition discriminate. Qed.
Lemma reply_good n k code data s : wf s -> sat (task_reply n k code data s) (good s).
Proof.
  intro W. unfold task_reply. assert (N : sat (emit s []) (good s)) by (cbn; apply good_same; auto).
  destruct (first_task k s) as [t|]; auto. destruct (kind_eqb _ n); auto.
  assert (U : forall c, ~ In (Destroyed c) (if code =? TPENOENT then unadvertise_service (k_sock t) (q_name (k_request t)) s else []))
    by (intro c; destruct (code =? TPENOENT); [apply unadvertise_service_destroyed|auto]).
  destruct n; cbn; apply good_same; auto; cbn; intro c; rewrite ?in_app_iff; cbn; specialize (U c); intuition discriminate.
Qed.
Lemma task_send_good k x data s : wf s -> sat (task_send k x data s) (good s).
Proof.
  intro W. unfold task_send. assert (N : sat (emit s []) (good s)) by (cbn; apply good_same; auto).
  destruct (first_task k s) as [t|]; auto. destruct (q_kind (k_request t)); auto. cbn.
  destruct x; apply good_same; auto; cbn; intros ? H; intuition discriminate.
Qed.
Lemma leave_good x n s : wf s -> In n (s_conns s) -> sat (leave x (c_sock n) s) (good s).
Proof.
  intros W I. cbn. split; [|apply closing_refl; [reflexivity|intro; apply unadvertise_destroyed]].
  destruct W as [A B C D K F]. constructor; cbn; auto. intros l H. apply in_app_or in H as [H|[<- |[]]]; [apply (C l H)|]. exists n; auto.
Qed.
Lemma without_dest_in k l d : In d (without_dest k l) -> In d l.
Proof. induction l as [|a l IH]; cbn; auto. destruct (d_corr a =? k); cbn; [auto|intros [H|H]; auto]. Qed.
Lemma take_dest_good k s d s' ev : wf s -> take_dest k s = (d, s') -> (forall c, ~ In (Destroyed c) ev) -> good s s' ev.
Proof.
  intros W E H. unfold take_dest in E. injection E as _ <-. split; [|now apply closing_refl].
  destruct W as [A B C D K F]. constructor; cbn; auto. intros x I. apply without_dest_in in I. apply (D x I).
Qed.
Lemma outward_good ok n m s : wf s -> In n (s_conns s) -> sat (outward_step ok n m s) (good s).
Proof.
  intros W I. destruct m as [nk k code data|k x data|r k data|k ss qs data|k]; cbn -[sat leave take_dest].
  - now apply reply_good.
  - now apply task_send_good.
  - destruct (take_dest k s) as [d s'] eqn:E. cbn. apply (take_dest_good k s d s'); auto. intros c H. destruct d; cbn in H; intuition discriminate.
  - destruct (take_dest k s) as [d s'] eqn:E. cbn. apply (take_dest_good k s d s'); auto. intros c H.
    rewrite !in_app_iff in H. destruct ss, qs, d; cbn in H; intuition discriminate.
  - apply sat_good_bind; [now apply leave_good|]. intros s1 W1. now apply send_good.
Qed.
Lemma close_all_good l s : wf s -> sat (close_all l s) (good s).
Proof.
  revert s. induction l as [|[f x] l IH]; intros s W; cbn -[sat]; [cbn; apply good_same; auto|].
  apply sat_good_bind; auto. apply sat_good_bind; [now apply lost_good|]. intros s1 W1. cbn. apply good_same; auto.
  intro c. destruct x; cbn; intuition discriminate.
Qed.
Lemma leave_all_good l s : wf s -> (forall n, In n l -> In n (s_conns s)) -> sat (leave_all l s) (good s).
Proof.
  revert s. induction l as [|n l IH]; intros s W H; cbn -[sat leave]; [cbn; apply good_same; auto|].
  apply (sat_bind _ _ _ (fun s' ev => good s s' ev /\ s_conns s' = s_conns s)).
  - pose proof (leave_good true n s W (H n (or_introl eq_refl))) as G. cbn in *. auto.
  - intros s1 ev [G E]. apply (sat_weaken _ _ _ (IH s1 (proj1 G) ltac:(intros m I; rewrite E; apply H; cbn; auto))).
    intros s2 ev2 G2. apply (good_trans _ _ _ _ _ G G2).
Qed.
(* all but a new connection *)
Lemma step_good i s : wf s -> (forall f c old, i <> Connected f c old) -> sat (step i s) (good s).
Proof.
  intros W N. assert (Z0 : sat (Done s []) (good s)) by (cbn; apply good_same; auto).
  destruct i as [f c old|c ok m|c ok m|c|g|c| |]; cbn -[sat leave shutdown idle].
  - exfalso; eapply N; reflexivity.
  - destruct (by_ipc c s) as [n|] eqn:E; auto. apply by_ipc_some in E as [E _]. now apply inward_good.
  - destruct (by_ipc c s) as [n|] eqn:E; auto. apply by_ipc_some in E as [E _]. now apply outward_good.
  - destruct (by_ipc c s) as [n|] eqn:E; auto. apply sat_good_bind; [now apply lost_good|]. intros s1 W1. cbn. apply good_same; auto. intros x [H|[]]; discriminate.
  - cbn. split; [|now apply closing_refl]. destruct W as [A B C D K F]. constructor; cbn; auto; [now apply NoDup_filter'|].
    intros h fs H. apply filter_In in H as [H _]. apply (F h fs H).
  - destruct (by_ipc c s) as [n|] eqn:E; auto. apply by_ipc_some in E as [E _]. now apply leave_good.
  - unfold shutdown. set (s1 := State _ _ _ _ _ _). apply (sat_from s s1 _ eq_refl). apply leave_all_good; [now apply (wf_same s)|auto].
  - unfold idle. now apply close_all_good.
Qed.
Lemma NoDup_map_snoc {A B} (g : A -> B) l x : NoDup (map g l) -> (forall y, In y l -> g y <> g x) -> NoDup (map g (l ++ [x])).
Proof.
  intros N H. rewrite map_app. cbn. apply NoDup_snoc; auto. intro I. apply in_map_iff in I as [y [E J]]. apply (H y J E).
Qed.

(* the connections there are, are the ones that are open *)
Record inv (s : state) (h : history) : Prop := {
  inv_wf : wf s;
  inv_conn : forall n, In n (s_conns s) -> In (Connected (c_sock n) (c_ipc n) (c_old n)) (inputs h);
  inv_open : forall c, In c (ipcs s) <-> open c h;
  inv_gone : forall c, gone c h -> connected c h
}.
Lemma inputs_in (i : input) h : In i (inputs h) -> exists ev, In (i, ev) h.
Proof. unfold inputs. intro H. apply in_map_iff in H as [[j ev] [E I]]. cbn in E; subst. eauto. Qed.
Lemma reach_inv s h : reach s h -> inv s h.
Proof.
  induction 1 as [|s h i s' ev R [W C O G] P E].
  - constructor; cbn.
    + constructor; cbn; try constructor; intros; contradiction.
    + tauto.
    + intro c. split; [tauto|]. intros [[f [old H]] _]. destruct H.
    + unfold gone, effects; cbn. tauto.
  - destruct (match i with Connected _ _ _ => true | _ => false end) eqn:NC.
    2: {
      assert (N : forall f c old, i <> Connected f c old) by (intros; intros ->; discriminate).
      pose proof (sat_done _ _ _ _ E (step_good i s W N)) as [W' [[ff F] D]].
      assert (CO : forall x, connected x (h ++ [(i, ev)]) <-> connected x h).
      { intro x. unfold connected. split; intros [f0 [o0 H]]; exists f0, o0; rewrite inputs_snoc in *; [|apply in_or_app; auto].
        apply in_app_or in H as [H|[H|[]]]; auto. exfalso; eapply N; eauto. }
      constructor.
      - exact W'.
      - intros n I; rewrite inputs_snoc; apply in_or_app; left; apply C; rewrite F in I; now apply filter_In in I as [I _].
      - intro x; unfold open; rewrite CO; unfold gone; rewrite effects_snoc, in_app_iff, D.
        specialize (O x); unfold open, gone in O.
        assert (SUB : In x (ipcs s') -> In x (ipcs s)) by (unfold ipcs; rewrite F; intro H; apply in_map_iff in H as [n [<- I]]; apply filter_In in I as [I _]; now apply in_map).
        destruct (in_dec Z.eq_dec x (ipcs s')); tauto.
      - intros x; unfold gone; rewrite effects_snoc, in_app_iff, CO, D; intros [H|[H _]]; [now apply G|apply O in H; apply H]. }
    destruct i as [f c old| | | | | | |]; try discriminate NC. clear NC.
    (* a new connection *)
    cbn in E. injection E as <- <-. cbn in P. destruct P as [P1 P2].
    assert (FR : ~ connected c h) by (intros [f' [o' H]]; apply inputs_in in H as [ev H]; apply (P2 _ _ _ H)).
    assert (FR2 : ~ In c (ipcs s)) by (intro H; apply O in H as [H _]; auto).
    constructor.
    + destruct W as [A B L D K F]. constructor; cbn; auto.
      * apply NoDup_map_snoc; auto.
      * unfold ipcs; cbn. apply NoDup_map_snoc; auto. intros y I H. apply FR2. cbn in H. rewrite <- H. now apply (in_map c_ipc).
      * intros l I. destruct (L l I) as [n [J1 J2]]. exists n. split; auto. cbn. apply in_or_app; auto.
      * intros d I. destruct (D d I) as [n [J1 J2]]. exists n. split; auto. cbn. apply in_or_app; auto.
    + cbn. intros n I. rewrite inputs_snoc, in_app_iff. apply in_app_or in I as [I|[<- |[]]]; cbn; auto.
    + intro x. unfold open, gone, connected. setoid_rewrite inputs_snoc. rewrite effects_snoc. unfold ipcs; cbn. rewrite map_app, in_app_iff. cbn. split.
      * intros [H|[H|[]]].
        -- apply O in H as [[f' [o' H1]] H2]. split; [exists f', o'; apply in_or_app; auto|]. unfold gone in H2. rewrite in_app_iff; cbn. intuition discriminate.
        -- subst x. split; [exists f, old; apply in_or_app; cbn; auto|]. rewrite in_app_iff; cbn. intros [H|[H|[]]]; [apply FR, G, H|discriminate].
      * intros [[f' [o' H1]] H2]. apply in_app_or in H1 as [H1|[H1|[]]].
        -- left. apply O. split; [exists f', o'; auto|]. intro H. apply H2. apply in_or_app; auto.
        -- injection H1 as <- <- <-. auto.
    + intro x. unfold gone, connected. rewrite effects_snoc, in_app_iff. setoid_rewrite inputs_snoc. intros [H|[H|[]]]; [|discriminate].
      destruct (G x H) as [f' [o' I]]. exists f', o'. apply in_or_app; auto.
Qed.
