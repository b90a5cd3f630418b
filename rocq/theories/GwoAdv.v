(* What is advertised and what isn't any more. *)
From Coq Require Import ZArith List Bool Lia.
From Verif Require Import GwoModel GwoSpec GwoProofs GwoInv GwoKeep GwoTight GwoReply GwoWire GwoTold GwoLost GwoClose GwoConsult.
Import ListNotations.
Local Open Scope Z_scope.

Definition advertises (e : effect) : bool := match e with Advertise _ _ | AdvertiseQueues _ _ | Unadvertise _ _ => true | _ => false end.
Definition orderly_close (ev : list effect) : Prop :=
  forall c, In (Destroyed c) ev -> exists e1 e2, ev = e1 ++ Reset c :: ResetQueues c :: Destroyed c :: e2.
Definition shaped (ev : list effect) : Prop := (forall e, In e ev -> advertises e = false) /\ orderly_close ev.
Lemma orderly_close_app e1 e2 : orderly_close e1 -> orderly_close e2 -> orderly_close (e1 ++ e2).
Proof.
  intros A B c I. apply in_app_or in I as [I|I].
  - destruct (A c I) as [x [y ->]]. exists x, (y ++ e2). rewrite <- app_assoc. reflexivity.
  - destruct (B c I) as [x [y ->]]. exists (e1 ++ x), y. rewrite <- app_assoc. reflexivity.
Qed.
Lemma shaped_app e1 e2 : shaped e1 -> shaped e2 -> shaped (e1 ++ e2).
Proof. intros [A1 B1] [A2 B2]. split; [|now apply orderly_close_app]. intros e I. apply in_app_or in I as [I|I]; auto. Qed.
Lemma no_close ev : (forall c, ~ In (Destroyed c) ev) -> orderly_close ev.
Proof. intros N c I. exfalso. eapply N; eauto. Qed.
Lemma shaped_nil : shaped [].
Proof. split; [intros e []|apply no_close; auto]. Qed.
Lemma shaped_one e : advertises e = false -> (forall c, e <> Destroyed c) -> shaped [e].
Proof. intros A N. split; [intros x [<- |[]]; auto|]. apply no_close. intros c [H|[]]. eapply N; eauto. Qed.
Lemma shaped_bind r f : sat r (fun _ ev => shaped ev) -> (forall s, sat (f s) (fun _ ev => shaped ev)) -> sat (bind r f) (fun _ ev => shaped ev).
Proof. intros A B. apply (sat_bind _ _ _ _ A). intros s1 e1 H. apply (sat_weaken _ _ _ (B s1)). intros s2 e2 H2. now apply shaped_app. Qed.
Lemma failed_shaped t : shaped (failed t).
Proof.
  unfold failed. destruct (q_kind _); [apply (shaped_app [_] [_])|..]; try apply shaped_nil; apply shaped_one; auto; discriminate.
Qed.
Lemma unadvertise_shaped f s : shaped (unadvertise f s).
Proof. unfold unadvertise. destruct (by_sock f s); [apply (shaped_app [_] [_]); apply shaped_one; auto; discriminate|apply shaped_nil]. Qed.
Lemma lost_shaped f s : sat (lost f s) (fun _ ev => shaped ev).
Proof.
  unfold lost. destruct (by_sock f s) as [n|] eqn:B; [|exact I]. unfold unadvertise. rewrite B. cbn -[shaped app].
  assert (T : shaped (flat_map (fun t => if k_sock t =? f then failed t else []) (s_tasks s))).
  { induction (s_tasks s) as [|t l IH]; cbn; [apply shaped_nil|]. apply shaped_app; auto. destruct (_ =? _); [apply failed_shaped|apply shaped_nil]. }
  rewrite app_assoc. apply shaped_app; auto. split.
  - intros e [<- |[<- |[<- |[]]]]; reflexivity.
  - intros c [H|[H|[H|[]]]]; try discriminate. injection H as <-. exists [], []. reflexivity.
Qed.
Lemma send_shaped ok f m s : sat (send ok f m s) (fun _ ev => shaped ev).
Proof.
  unfold send. destruct (by_sock f s); [|apply shaped_nil]. destruct ok; [apply shaped_one; auto; discriminate|]. apply shaped_bind; [apply lost_shaped|]. intro; apply shaped_one; auto; discriminate.
Qed.
Lemma involve_shaped t f s : sat (involve t f s) (fun _ ev => shaped ev).
Proof.
  unfold involve. destruct t as [[g b]|]; [|apply shaped_nil]. destruct (associate _ _ _) as [first l]. destruct first; [destruct (by_sock f s)|]; try apply shaped_nil. apply shaped_one; auto; discriminate.
Qed.
Lemma inward_shaped ok n m s : sat (inward_step ok n m s) (fun _ ev => shaped ev).
Proof.
  destruct m as [q|k data|k|r k p t data|k p data|data]; cbn -[sat].
  - destruct (q_kind q).
    + unfold call_request. destruct (has_corr _ _); [apply (shaped_app [_] [_]); apply shaped_one; auto; discriminate|]. destruct (c_old n).
      * apply shaped_bind; [apply involve_shaped|]. intro; apply send_shaped.
      * pose proof (send_shaped ok (c_sock n) (WRequest false q) s) as H. destruct (send ok (c_sock n) (WRequest false q) s); auto. destruct ok; [|exact I]. apply shaped_bind; auto. intro; apply involve_shaped.
    + unfold queue_request. apply shaped_bind; [apply send_shaped|]. intro; apply involve_shaped.
    + unfold queue_request. apply shaped_bind; [apply send_shaped|]. intro; apply involve_shaped.
    + unfold connect_request. apply shaped_bind; [apply involve_shaped|]. intro; apply send_shaped.
  - apply send_shaped.
  - unfold disconnect_conversation. destruct (first_task k s) as [t|]; [|apply shaped_nil]. destruct (q_kind (k_request t)); try apply shaped_nil.
    destruct (by_sock (k_sock t) s) eqn:B; [|apply shaped_one; auto; discriminate]. unfold send. rewrite B. destruct ok; [|destruct (bind _ _); exact I]. apply (shaped_app [_] [_]); apply shaped_one; auto; discriminate.
  - apply send_shaped.
  - destruct (s_down s); [apply shaped_one; auto; discriminate|]. destruct (is_leaving _ _); [apply shaped_one; auto; discriminate|]. apply send_shaped.
  - destruct (s_down s); [apply shaped_nil|]. destruct (is_leaving _ _); [apply shaped_nil|]. apply send_shaped.
Qed.
Lemma close_all_shaped l s : sat (close_all l s) (fun _ ev => shaped ev).
Proof.
  revert s. induction l as [|[f b] l IH]; intro s; cbn -[sat]; [apply shaped_nil|]. apply shaped_bind; [|exact IH]. apply shaped_bind; [apply lost_shaped|]. intro. destruct b; [apply shaped_one; auto; discriminate|apply shaped_nil].
Qed.
Lemma leave_all_shaped l s : sat (leave_all l s) (fun _ ev => shaped ev).
Proof. revert s. induction l as [|n l IH]; intro s; cbn -[sat leave]; [apply shaped_nil|]. apply shaped_bind; [apply unadvertise_shaped|exact IH]. Qed.
(* what a remote can make it advertise *)
Definition said (n : conn) (m : outward) (s : state) (e : effect) : Prop :=
  match e with
  | Advertise c ss => exists k ss0 qs data, m = XDiscovered k ss0 qs data /\ c = c_ipc n /\ ss0 <> [] /\ ss = map (fun x => (fst x, snd x + 1)) ss0
  | AdvertiseQueues c qs => exists k ss data, m = XDiscovered k ss qs data /\ c = c_ipc n /\ qs <> []
  | Unadvertise c x => exists nk k data t n', m = XReply nk k TPENOENT data /\ In t (s_tasks s) /\ q_corr (k_request t) = k /\ q_kind (k_request t) = nk /\ q_name (k_request t) = x /\ In n' (s_conns s) /\ c_sock n' = k_sock t /\ c_ipc n' = c
  | _ => True
  end.
Lemma outward_said ok n m s : sat (outward_step ok n m s) (fun _ ev => (forall e, In e ev -> said n m s e) /\ orderly_close ev).
Proof.
  assert (SH : forall r, sat r (fun _ ev => shaped ev) -> sat r (fun _ ev => (forall e, In e ev -> said n m s e) /\ orderly_close ev)).
  { intros r H. apply (sat_weaken _ _ _ H). intros s' ev [A B]. split; auto. intros e I. specialize (A e I). destruct e; try discriminate A; exact Logic.I. }
  destruct m as [nk k code data|k x data|r k data|k ss qs data|k]; cbn -[sat leave take_dest said].
  - unfold task_reply. destruct (first_task k s) as [t|] eqn:F; [|apply SH, shaped_nil]. destruct (kind_eqb (q_kind (k_request t)) nk) eqn:K; [|apply SH, shaped_nil]. apply kind_eqb_eq in K.
    apply find_some in F as [F1 F2]. apply Z.eqb_eq in F2.
    assert (U : forall e, In e (if code =? TPENOENT then unadvertise_service (k_sock t) (q_name (k_request t)) s else []) -> said n (XReply nk k code data) s e /\ forall c, e <> Destroyed c).
    { intros e. destruct (Z.eqb_spec code TPENOENT) as [-> |]; [|intros []]. unfold unadvertise_service. destruct (by_sock (k_sock t) s) as [n'|] eqn:B; [|intros []]. intros [<- |[]]. split; [|discriminate].
      apply by_sock_some in B as [B1 B2]. exists nk, k, data, t, n'. do 3 (split; [auto|]). auto 10. }
    destruct nk; cbn -[TPENOENT said].
    + split.
      * intros e [<- |J]; [exact Logic.I|]. apply in_app_or in J as [J|[<- |[]]]; [apply U; auto|exact Logic.I].
      * apply no_close. intros c [H|J]; [discriminate|]. apply in_app_or in J as [J|[J|[]]]; [|discriminate]. apply U in J as [_ J]. apply (J c eq_refl).
    + split; [intros e [<- |[]]; exact Logic.I|]. apply no_close. intros c [H|[]]; discriminate.
    + split; [intros e [<- |[]]; exact Logic.I|]. apply no_close. intros c [H|[]]; discriminate.
    + split.
      * intros e J. apply in_app_or in J as [J|[<- |[]]]; [apply U; auto|exact Logic.I].
      * apply no_close. intros c J. apply in_app_or in J as [J|[J|[]]]; [|discriminate]. apply U in J as [_ J]. apply (J c eq_refl).
  - apply SH. unfold task_send. destruct (first_task k s) as [t|]; [|apply shaped_nil]. destruct (q_kind _); try apply shaped_nil. apply shaped_one; auto; discriminate.
  - apply SH. cbn. destruct (find _ _); [apply shaped_one; auto; discriminate|apply shaped_nil].
  - cbn -[said]. split.
    + intros e J. apply in_app_or in J as [J|J]; [|apply in_app_or in J as [J|J]].
      * destruct ss as [|x ss]; [destruct J|]. destruct J as [<- |[]]. exists k, (x :: ss), qs, data. split; auto. split; auto. split; [discriminate|reflexivity].
      * destruct qs as [|x qs]; [destruct J|]. destruct J as [<- |[]]. exists k, ss, data. split; auto. split; auto. discriminate.
      * destruct (find _ _); [destruct J as [<- |[]]|destruct J]. exact Logic.I.
    + apply no_close. intros c J. rewrite !in_app_iff in J. destruct (find _ _), ss, qs; cbn in J; intuition discriminate.
  - apply SH. apply shaped_bind; [apply unadvertise_shaped|]. intro; apply send_shaped.
Qed.
Lemma step_said i s : sat (step i s) (fun _ ev => orderly_close ev /\
  forall e, In e ev -> advertises e = true -> exists c ok m n, i = Outward c ok m /\ by_ipc c s = Some n /\ said n m s e).
Proof.
  assert (SH : forall r, sat r (fun _ ev => shaped ev) -> sat r (fun _ ev => orderly_close ev /\
    forall e, In e ev -> advertises e = true -> exists c ok m n, i = Outward c ok m /\ by_ipc c s = Some n /\ said n m s e)).
  { intros r H. apply (sat_weaken _ _ _ H). intros s' ev [A B]. split; auto. intros e J E. rewrite (A e J) in E. discriminate. }
  destruct i as [f c old|c ok m|c ok m|c|g|c| |]; cbn -[sat leave shutdown idle inward_step outward_step said].
  - apply (SH (Done s _)). apply shaped_one; auto; discriminate.
  - apply SH. destruct (by_ipc c s) as [n|]; [apply inward_shaped|apply shaped_nil].
  - destruct (by_ipc c s) as [n|] eqn:B; [|apply SH, shaped_nil]. apply (sat_weaken _ _ _ (outward_said ok n m s)). intros s' ev [A C]. split; auto. intros e J _. exists c, ok, m, n. auto.
  - apply SH. destruct (by_ipc c s) as [n|]; [|apply shaped_nil]. apply shaped_bind; [apply lost_shaped|]. intro; apply shaped_one; auto; discriminate.
  - apply (SH (Done s _)), shaped_nil.
  - apply SH. destruct (by_ipc c s) as [n|]; [apply unadvertise_shaped|apply shaped_nil].
  - apply SH, leave_all_shaped.
  - apply SH, close_all_shaped.
Qed.
Lemma advertised h i ev c ss : happens (h ++ [(i, ev)]) -> In (Advertise c ss) ev ->
  open c h /\ exists ok k ss0 qs data, i = Outward c ok (XDiscovered k ss0 qs data) /\ ss = map (fun x => (fst x, snd x + 1)) ss0 /\ ss0 <> [].
Proof.
  intros H J. destruct (happens_snoc _ _ _ H) as [s [s' [R [P [E R']]]]]. pose proof (reach_inv s h R) as [W _ OP _].
  destruct (sat_done _ _ _ _ E (step_said i s)) as [_ A]. destruct (A _ J eq_refl) as [c0 [ok [m [n [-> [B [k [ss0 [qs [data [-> [-> [N ->]]]]]]]]]]]]]. apply by_ipc_some in B as [B1 <-].
  split; [apply OP; now apply in_map|]. exists ok, k, ss0, qs, data. auto.
Qed.
Lemma advertised_queues h i ev c qs : happens (h ++ [(i, ev)]) -> In (AdvertiseQueues c qs) ev ->
  open c h /\ exists ok k ss data, i = Outward c ok (XDiscovered k ss qs data) /\ qs <> [].
Proof.
  intros H J. destruct (happens_snoc _ _ _ H) as [s [s' [R [P [E R']]]]]. pose proof (reach_inv s h R) as [W _ OP _].
  destruct (sat_done _ _ _ _ E (step_said i s)) as [_ A]. destruct (A _ J eq_refl) as [c0 [ok [m [n [-> [B [k [ss0 [data [-> [-> N]]]]]]]]]]]. apply by_ipc_some in B as [B1 <-].
  split; [apply OP; now apply in_map|]. exists ok, k, ss0, data. auto.
Qed.
(* what a connection has is advertised, all of it *)
Lemma advertises_all h c ok k ss qs data ev : happens (h ++ [(Outward c ok (XDiscovered k ss qs data), ev)]) ->
  (ss <> [] -> In (Advertise c (map (fun x => (fst x, snd x + 1)) ss)) ev) /\ (qs <> [] -> In (AdvertiseQueues c qs) ev).
Proof.
  intros H. destruct (happens_snoc _ _ _ H) as [s [s' [R [P [E R']]]]]. cbn in P. destruct (by_ipc_in c s P) as [n B]. cbn in E. rewrite B in E. apply by_ipc_some in B as [B1 <-]. cbn in E. injection E as _ <-. split; intro N.
  - destruct ss as [|x ss]; [contradiction|]. cbn. auto.
  - destruct qs as [|x qs]; [contradiction|]. rewrite !in_app_iff. cbn. auto.
Qed.
(* whoever routes to it is told before it's gone *)
Lemma closed_after_reset h i ev c : happens (h ++ [(i, ev)]) -> In (Destroyed c) ev -> exists e1 e2, ev = e1 ++ Reset c :: ResetQueues c :: Destroyed c :: e2.
Proof. intros H J. destruct (happens_snoc _ _ _ H) as [s [s' [R [P [E R']]]]]. destruct (sat_done _ _ _ _ E (step_said i s)) as [O _]. auto. Qed.
Lemma nothing_after_gone h i ev c : happens (h ++ [(i, ev)]) -> gone c h ->
  (forall ss, ~ In (Advertise c ss) ev) /\ (forall qs, ~ In (AdvertiseQueues c qs) ev) /\ ~ In (Destroyed c) ev.
Proof.
  intros H G. split; [|split].
  - intros ss J. apply (advertised _ _ _ _ _ H) in J as [[_ O] _]. auto.
  - intros qs J. apply (advertised_queues _ _ _ _ _ H) in J as [[_ O] _]. auto.
  - intro J. apply (closed_cause _ _ _ _ H) in J as [[_ O] _]. auto.
Qed.
Lemma unadvertise_in n s : wf s -> In n (s_conns s) -> unadvertise (c_sock n) s = [Reset (c_ipc n); ResetQueues (c_ipc n)].
Proof. intros W I. unfold unadvertise. now rewrite (by_sock_in s n (wf_sock _ W) I). Qed.
Lemma leave_all_resets l s n : wf s -> (forall m, In m l -> In m (s_conns s)) -> In n l -> sat (leave_all l s) (fun _ ev => In (Reset (c_ipc n)) ev /\ In (ResetQueues (c_ipc n)) ev).
Proof.
  revert s. induction l as [|m l IH]; intros s W L I; [destruct I|]. cbn -[sat leave].
  pose proof (leave_good true m s W (L m (or_introl eq_refl))) as G.
  apply (sat_bind _ _ _ (fun s' ev => wf s' /\ s_conns s' = s_conns s /\ ev = [Reset (c_ipc m); ResetQueues (c_ipc m)])).
  - split; [apply G|]. split; [reflexivity|]. apply unadvertise_in; auto. apply L; cbn; auto.
  - intros s1 e1 [W1 [E1 ->]]. destruct I as [-> |I].
    + destruct (leave_all l s1); cbn; auto.
    + apply (sat_weaken _ _ _ (IH s1 W1 ltac:(intros x J; rewrite E1; apply L; cbn; auto) I)). intros s2 e2 [A B]. cbn; auto.
Qed.
Lemma leaving_reset h i ev c : happens (h ++ [(i, ev)]) -> open c h -> asked_to_leave c i -> In (Reset c) ev /\ In (ResetQueues c) ev.
Proof.
  intros H O A. destruct (happens_snoc _ _ _ H) as [s [s' [R [P [E R']]]]]. pose proof (reach_inv s h R) as [W _ OP _]. apply OP in O. unfold ipcs in O. apply in_map_iff in O as [n [<- I]].
  destruct i as [f c old|c ok m|c ok m|c|g|c| |]; cbn in A; try contradiction.
  - destruct m as [| | | |k]; cbn in A; try contradiction. subst c. cbn -[outward_step] in E. destruct (by_ipc_in _ s P) as [n' B]. rewrite B in E. apply by_ipc_some in B as [B1 B2].
    assert (n' = n) by (apply (same_ipc s); auto; apply W). subst n'. cbn -[send unadvertise] in E. rewrite (unadvertise_in n s W I) in E.
    destruct (send ok (c_sock n) (WDisconnected k) _) as [s1 e1| |]; try discriminate E. injection E as _ <-. cbn; auto.
  - subst c. cbn -[leave] in E. destruct (by_ipc_in _ s P) as [n' B]. rewrite B in E. apply by_ipc_some in B as [B1 B2]. assert (n' = n) by (apply (same_ipc s); auto; apply W). subst n'.
    unfold leave in E. rewrite (unadvertise_in n s W I) in E. injection E as _ <-. cbn; auto.
  - cbn -[shutdown] in E. unfold shutdown in E. assert (W2 : wf (State (s_conns s) (s_tasks s) (s_dests s) (s_assoc s) (s_leaving s) true)) by (apply (wf_same s); auto).
    apply (sat_done _ _ _ _ E (leave_all_resets (s_conns s) _ n W2 (fun m J => J) I)).
Qed.
