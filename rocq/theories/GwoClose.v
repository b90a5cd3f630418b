(* When connections are closed. *)
From Coq Require Import ZArith List Bool Lia.
From Verif Require Import GwoModel GwoSpec GwoProofs GwoInv GwoKeep GwoTight GwoReply GwoWire GwoTold GwoLost.
Import ListNotations.
Local Open Scope Z_scope.

(* ---- which are closed ---- *)
(* only connections with the descriptors that are in X *)
Definition only (X : sock -> Prop) (s s' : state) (ev : list effect) : Prop :=
  sub s s' /\ forall c, In (Destroyed c) ev -> exists n, In n (s_conns s) /\ c_ipc n = c /\ X (c_sock n).
Lemma only_trans X s s1 s2 e1 e2 : only X s s1 e1 -> only X s1 s2 e2 -> only X s s2 (e1 ++ e2).
Proof.
  intros [A1 B1] [A2 B2]. split; [intros n I; auto|]. intros c I. apply in_app_or in I as [I|I]; [auto|]. destruct (B2 c I) as [n [J1 J2]]. eauto.
Qed.
Lemma only_bind X r f s : sat r (only X s) -> (forall s1, sat (f s1) (only X s1)) -> sat (bind r f) (only X s).
Proof. intros A B. apply (sat_bind _ _ _ _ A). intros s1 e1 H. apply (sat_weaken _ _ _ (B s1)). intros s2 e2 H2. eapply only_trans; eauto. Qed.
Lemma only_none X s s' ev : s_conns s' = s_conns s -> (forall c, ~ In (Destroyed c) ev) -> only X s s' ev.
Proof. intros E N. split; [intros n; now rewrite E|]. intros c I. exfalso. eapply N; eauto. Qed.
Lemma lost_only (X : sock -> Prop) f s : X f -> sat (lost f s) (only X s).
Proof.
  intro H. unfold lost. destruct (by_sock f s) as [n|] eqn:B; [|exact I]. apply by_sock_some in B as B'. destruct B' as [B1 B2]. split; cbn.
  - intros m J. now apply filter_In in J as [J _].
  - intros c J. apply in_app_or in J as [J|[J|J]].
    + exfalso. eapply unadvertise_destroyed; eauto.
    + injection J as <-. exists n. split; auto. split; auto. now rewrite B2.
    + exfalso. apply in_flat_map in J as [t [_ J]]. destruct (_ =? _); [eapply failed_no_destroyed; eauto|destruct J].
Qed.
Lemma send_only (X : sock -> Prop) ok f m s : (ok = false -> X f) -> sat (send ok f m s) (only X s).
Proof.
  intro H. unfold send. destruct (by_sock f s); [|apply only_none; cbn; auto]. destruct ok.
  - apply only_none; auto. cbn. intros x [J|[]]; discriminate.
  - apply only_bind; [apply lost_only; auto|]. intro s1. apply only_none; auto. cbn. intros x [J|[]]; discriminate.
Qed.
Lemma involve_only X t f s : sat (involve t f s) (only X s).
Proof.
  unfold involve. destruct t as [[g b]|]; [|apply only_none; cbn; auto]. destruct (associate _ _ _) as [first l]. destruct first; [destruct (by_sock f s)|]; apply only_none; cbn; auto. intros x [J|[]]; discriminate.
Qed.
Lemma only_from X s0 s s' ev : s_conns s = s_conns s0 -> only X s s' ev -> only X s0 s' ev.
Proof. unfold only, sub. intros ->. auto. Qed.
Lemma inward_only ok n m s : sat (inward_step ok n m s) (only (fun f => ok = false /\ f = c_sock n) s).
Proof.
  set (X := fun f => ok = false /\ f = c_sock n). assert (HX : ok = false -> X (c_sock n)) by (intro; split; auto).
  assert (AT : forall q s1, sat (involve (q_trid q) (c_sock n) (add_task (c_sock n) q s1)) (only X s1)).
  { intros q s1. apply (sat_weaken _ _ _ (involve_only X _ _ _)). intros s2 e. now apply only_from. }
  assert (AD : forall k p w, sat (send ok (c_sock n) w (add_dest k p (c_sock n) s)) (only X s)).
  { intros k p w. apply (sat_weaken _ _ _ (send_only X ok _ _ _ HX)). intros s2 e. apply only_from. apply add_dest_conns. }
  destruct m as [q|k data|k|r k p t data|k p data|data]; cbn -[sat].
  - destruct (q_kind q).
    + unfold call_request. destruct (has_corr _ _); [apply only_none; auto; cbn; intros x H; intuition discriminate|]. destruct (c_old n).
      * apply only_bind; [apply AT|]. intro; now apply send_only.
      * pose proof (send_only X ok (c_sock n) (WRequest false q) s HX) as H. destruct (send ok (c_sock n) (WRequest false q) s); auto. destruct ok; [|exact I]. apply only_bind; auto.
    + unfold queue_request. apply only_bind; [now apply send_only|]. intro; apply AT.
    + unfold queue_request. apply only_bind; [now apply send_only|]. intro; apply AT.
    + unfold connect_request. apply only_bind; [apply AT|]. intro; now apply send_only.
  - now apply send_only.
  - unfold disconnect_conversation. destruct (first_task k s) as [t|]; [|apply only_none; cbn; auto]. destruct (q_kind (k_request t)); try (apply only_none; cbn; auto).
    destruct (by_sock (k_sock t) s) eqn:B; [|apply only_none; auto; cbn; intros x [H|[]]; discriminate].
    unfold send. rewrite B. destruct ok; [|destruct (bind _ _); exact I]. apply only_none; auto. cbn. intros x [H|[H|[]]]; discriminate.
  - apply AD.
  - destruct (s_down s); [apply only_none; auto; cbn; intros x [H|[]]; discriminate|]. destruct (is_leaving _ _); [apply only_none; auto; cbn; intros x [H|[]]; discriminate|]. apply AD.
  - destruct (s_down s); [apply only_none; cbn; auto|]. destruct (is_leaving _ _); [apply only_none; cbn; auto|]. now apply send_only.
Qed.
Lemma outward_only ok n m s : sat (outward_step ok n m s) (only (fun f => f = c_sock n /\ exists k, ok = false /\ m = XDisconnect k) s).
Proof.
  destruct m as [nk k code data|k x data|r k data|k ss qs data|k]; cbn -[sat leave take_dest].
  - unfold task_reply. destruct (first_task k s) as [t|]; [|apply only_none; cbn; auto]. destruct (kind_eqb _ nk); [|apply only_none; cbn; auto].
    assert (V : forall c, ~ In (Destroyed c) (if code =? TPENOENT then unadvertise_service (k_sock t) (q_name (k_request t)) s else [])) by (intro c; destruct (code =? TPENOENT); [apply unadvertise_service_destroyed|auto]).
    destruct nk; apply only_none; auto; intros c J; cbn -[TPENOENT] in J; rewrite ?in_app_iff in J; cbn -[TPENOENT] in J; specialize (V c); intuition discriminate.
  - unfold task_send. destruct (first_task k s) as [t|]; [|apply only_none; cbn; auto]. destruct (q_kind _); try (apply only_none; cbn; auto; fail). apply only_none; [destruct x; reflexivity|]. cbn. intros c [H|[]]; discriminate.
  - cbn. apply only_none; auto. intros c H. destruct (find _ _); cbn in H; intuition discriminate.
  - cbn. apply only_none; auto. intros c H. rewrite !in_app_iff in H. destruct (find _ _), ss, qs; cbn in H; intuition discriminate.
  - apply only_bind; [apply only_none; auto; intros c; apply unadvertise_destroyed|]. intro s1. apply send_only. intro H. split; eauto.
Qed.
Lemma close_all_only (X : sock -> Prop) l s : (forall f b, In (f, b) l -> X f) -> sat (close_all l s) (only X s).
Proof.
  revert s. induction l as [|[f b] l IH]; intros s H; cbn -[sat]; [apply only_none; cbn; auto|]. apply only_bind; [|intro; apply IH; intros; eapply H; cbn; eauto].
  apply only_bind; [apply lost_only; eapply H; cbn; eauto|]. intro s1. apply only_none; auto. destruct b; cbn; intros c J; intuition discriminate.
Qed.
Definition closes (i : input) (s : state) (c : ipc) (f : sock) : Prop :=
  match i with
  | Inward c' ok _ => c' = c /\ ok = false
  | Outward c' ok m => c' = c /\ ok = false /\ exists k, m = XDisconnect k
  | Broken c' => c' = c
  | Idle => idle_sock s f = true /\ exists b, In (f, b) (s_leaving s)
  | _ => False
  end.
Lemma step_only i s : wf s -> sat (step i s) (fun _ ev => forall c, In (Destroyed c) ev -> exists n, In n (s_conns s) /\ c_ipc n = c /\ closes i s c (c_sock n)).
Proof.
  intro W. assert (ONE : forall n m, In n (s_conns s) -> In m (s_conns s) -> c_sock n = c_sock m -> n = m) by (intros; apply (same_sock s); auto; apply W).
  destruct i as [f c old|c ok m|c ok m|c|g|c| |]; cbn -[sat leave shutdown idle inward_step outward_step].
  - cbn. intros x [H|[]]; discriminate.
  - destruct (by_ipc c s) as [n|] eqn:E; [|cbn; tauto]. apply by_ipc_some in E as [E1 E2]. apply (sat_weaken _ _ _ (inward_only ok n m s)). intros s' ev [_ H] x J. destruct (H x J) as [n' [J1 [J2 [J3 J4]]]].
    exists n'. split; auto. split; auto. split; auto. rewrite <- E2, <- J2. f_equal. symmetry. auto.
  - destruct (by_ipc c s) as [n|] eqn:E; [|cbn; tauto]. apply by_ipc_some in E as [E1 E2]. apply (sat_weaken _ _ _ (outward_only ok n m s)). intros s' ev [_ H] x J. destruct (H x J) as [n' [J1 [J2 [J3 [k [J4 J5]]]]]].
    exists n'. split; auto. split; auto. split; [rewrite <- E2, <- J2; f_equal; symmetry; auto|eauto].
  - destruct (by_ipc c s) as [n|] eqn:E; [|cbn; tauto]. apply by_ipc_some in E as [E1 E2].
    assert (H : sat (bind (lost (c_sock n) s) (fun s0 => Done s0 [Lost (c_sock n)])) (only (fun f => f = c_sock n) s)).
    { apply only_bind; [now apply lost_only|]. intro s1. apply only_none; auto. cbn. intros x [H|[]]; discriminate. }
    apply (sat_weaken _ _ _ H). intros s' ev [_ H1] x J. destruct (H1 x J) as [n' [J1 [J2 J3]]]. exists n'. split; auto. split; auto. rewrite <- E2, <- J2. f_equal. symmetry. auto.
  - cbn. tauto.
  - destruct (by_ipc c s) as [n|] eqn:E; [|cbn; tauto]. cbn. intros x J. exfalso. eapply unadvertise_destroyed; eauto.
  - unfold shutdown. assert (H : forall l s0, sat (leave_all l s0) (fun _ ev => forall c, ~ In (Destroyed c) ev)).
    { induction l as [|n l IH]; intro s0; [cbn; auto|]. cbn -[sat leave]. apply (sat_bind _ _ _ (fun _ ev => forall c, ~ In (Destroyed c) ev)); [intro c; apply unadvertise_destroyed|].
      intros s1 e1 H. apply (sat_weaken _ _ _ (IH s1)). intros s2 e2 H2 c J. apply in_app_or in J as [J|J]; [eapply H|eapply H2]; eauto. }
    apply (sat_weaken _ _ _ (H _ _)). intros s1 e1 H1 c J. exfalso. eapply H1; eauto.
  - unfold idle. assert (Q : sat (close_all (filter (fun l => idle_sock s (fst l)) (s_leaving s)) s) (only (fun f => idle_sock s f = true /\ exists b, In (f, b) (s_leaving s)) s)).
    { apply close_all_only. intros f b J. apply filter_In in J as [J1 J2]. split; [exact J2|exists b; exact J1]. }
    apply (sat_weaken _ _ _ Q).
    intros s1 e1 [_ H1] c J. auto.
Qed.

(* ---- the ones that are leaving ---- *)
Definition leaves (i : input) (s : state) (n : conn) : Prop := asked_to_leave (c_ipc n) i /\ In n (s_conns s).
Definition lv (s : state) (L : list leaving) (s' : state) : Prop := exists p, s_leaving s' = filter p (s_leaving s ++ L).
Lemma lv_trans s L1 s1 L2 s2 : L2 = [] \/ (exists p, s_leaving s1 = filter p (s_leaving s ++ L1) /\ filter p (s_leaving s ++ L1) = s_leaving s ++ L1) -> lv s L1 s1 -> lv s1 L2 s2 -> lv s (L1 ++ L2) s2.
Proof.
  intros X [p1 E1] [p2 E2]. destruct X as [-> |[p [X1 X2]]].
  - exists (fun x => p1 x && p2 x). rewrite E2, E1, !app_nil_r, filter_filter. reflexivity.
  - exists p2. rewrite E2, X1, X2, app_assoc. reflexivity.
Qed.
Lemma lv_same s s' : s_leaving s' = s_leaving s -> lv s [] s'.
Proof. intros E. exists (fun _ => true). rewrite app_nil_r, filter_true. auto. Qed.
Lemma lv_bind s L r f : sat r (fun s' _ => lv s L s') -> (forall s1, sat (f s1) (fun s' _ => lv s1 [] s')) -> sat (bind r f) (fun s' _ => lv s L s').
Proof.
  intros A B. apply (sat_bind _ _ _ _ A). intros s1 e1 H. apply (sat_weaken _ _ _ (B s1)). intros s2 e2 H2. rewrite <- (app_nil_r L). eapply lv_trans; eauto.
Qed.
Lemma lost_lv f s : sat (lost f s) (fun s' _ => lv s [] s').
Proof. unfold lost. destruct (by_sock f s); [|exact I]. exists (fun l => negb (fst l =? f)). now rewrite app_nil_r. Qed.
Lemma send_lv ok f m s : sat (send ok f m s) (fun s' _ => lv s [] s').
Proof. unfold send. destruct (by_sock f s); [|now apply lv_same]. destruct ok; [now apply lv_same|]. apply lv_bind; [apply lost_lv|]. intro; now apply lv_same. Qed.
Lemma involve_lv t f s : sat (involve t f s) (fun s' _ => lv s [] s').
Proof. unfold involve. destruct t as [[g b]|]; [|now apply lv_same]. destruct (associate _ _ _) as [first l]. destruct first; [destruct (by_sock f s)|]; now apply lv_same. Qed.
Lemma lv_from s0 s L s' : s_leaving s = s_leaving s0 -> lv s L s' -> lv s0 L s'.
Proof. unfold lv. intros ->. auto. Qed.
Lemma inward_lv ok n m s : sat (inward_step ok n m s) (fun s' _ => lv s [] s').
Proof.
  assert (AT : forall q s1, sat (involve (q_trid q) (c_sock n) (add_task (c_sock n) q s1)) (fun s' _ => lv s1 [] s')).
  { intros q s1. apply (sat_weaken _ _ _ (involve_lv _ _ _)). intros s2 e. now apply lv_from. }
  assert (AD : forall k p w, sat (send ok (c_sock n) w (add_dest k p (c_sock n) s)) (fun s' _ => lv s [] s')).
  { intros k p w. apply (sat_weaken _ _ _ (send_lv ok _ _ _)). intros s2 e. apply lv_from. unfold add_dest. destruct (existsb _ _); reflexivity. }
  destruct m as [q|k data|k|r k p t data|k p data|data]; cbn -[sat].
  - destruct (q_kind q).
    + unfold call_request. destruct (has_corr _ _); [now apply lv_same|]. destruct (c_old n).
      * apply lv_bind; [apply AT|]. intro; apply send_lv.
      * pose proof (send_lv ok (c_sock n) (WRequest false q) s) as H. destruct (send ok (c_sock n) (WRequest false q) s); auto. destruct ok; [|exact I]. apply lv_bind; auto.
    + unfold queue_request. apply lv_bind; [apply send_lv|]. intro; apply AT.
    + unfold queue_request. apply lv_bind; [apply send_lv|]. intro; apply AT.
    + unfold connect_request. apply lv_bind; [apply AT|]. intro; apply send_lv.
  - apply send_lv.
  - unfold disconnect_conversation. destruct (first_task k s) as [t|]; [|now apply lv_same]. destruct (q_kind (k_request t)); try now apply lv_same.
    destruct (by_sock (k_sock t) s) eqn:B; [|now apply lv_same]. unfold send. rewrite B. destruct ok; [|destruct (bind _ _); exact I]. now apply lv_same.
  - apply AD.
  - destruct (s_down s); [now apply lv_same|]. destruct (is_leaving _ _); [now apply lv_same|]. apply AD.
  - destruct (s_down s); [now apply lv_same|]. destruct (is_leaving _ _); [now apply lv_same|]. apply send_lv.
Qed.
Lemma leave_lv b n s : sat (leave b (c_sock n) s) (fun s' _ => lv s [(c_sock n, b)] s').
Proof. cbn. exists (fun _ => true). rewrite filter_true. reflexivity. Qed.
Lemma outward_lv ok n m s : sat (outward_step ok n m s) (fun s' _ => lv s (match m with XDisconnect _ => [(c_sock n, true)] | _ => [] end) s').
Proof.
  destruct m as [nk k code data|k x data|r k data|k ss qs data|k]; cbn -[sat leave take_dest].
  - unfold task_reply. destruct (first_task k s) as [t|]; [|now apply lv_same]. destruct (kind_eqb _ nk); [|now apply lv_same]. destruct nk; now apply lv_same.
  - unfold task_send. destruct (first_task k s) as [t|]; [|now apply lv_same]. destruct (q_kind _); try now apply lv_same. destruct x; now apply lv_same.
  - now apply lv_same.
  - now apply lv_same.
  - apply lv_bind; [apply leave_lv|]. intro; apply send_lv.
Qed.
Lemma close_all_lv l s : sat (close_all l s) (fun s' _ => lv s [] s').
Proof. revert s. induction l as [|[f b] l IH]; intro s; cbn -[sat]; [now apply lv_same|]. apply lv_bind; [|exact IH]. apply lv_bind; [apply lost_lv|]. intro; now apply lv_same. Qed.
Lemma leave_all_lv l s : sat (leave_all l s) (fun s' _ => s_leaving s' = s_leaving s ++ map (fun n => (c_sock n, true)) l).
Proof.
  revert s. induction l as [|n l IH]; intro s; cbn -[sat leave]; [cbn; now rewrite app_nil_r|]. apply (sat_bind _ _ _ (fun s' _ => s_leaving s' = s_leaving s ++ [(c_sock n, true)])); [reflexivity|].
  intros s1 e1 H. apply (sat_weaken _ _ _ (IH s1)). intros s2 _ ->. rewrite H, <- app_assoc. reflexivity.
Qed.
Definition leavers (i : input) (s : state) : list leaving :=
  match i with
  | Outward c _ (XDisconnect _) => match by_ipc c s with Some n => [(c_sock n, true)] | None => [] end
  | Remove c => match by_ipc c s with Some n => [(c_sock n, false)] | None => [] end
  | Shutdown => map (fun n => (c_sock n, true)) (s_conns s)
  | _ => []
  end.
Lemma step_lv i s : sat (step i s) (fun s' _ => lv s (leavers i s) s').
Proof.
  destruct i as [f c old|c ok m|c ok m|c|g|c| |]; cbn -[sat leave shutdown idle inward_step outward_step].
  - now apply lv_same.
  - destruct (by_ipc c s) as [n|]; [apply inward_lv|now apply lv_same].
  - destruct (by_ipc c s) as [n|] eqn:E; [apply (sat_weaken _ _ _ (outward_lv ok n m s)); destruct m; auto|destruct m; now apply lv_same].
  - destruct (by_ipc c s) as [n|]; [|now apply lv_same]. apply lv_bind; [apply lost_lv|]. intro; now apply lv_same.
  - now apply lv_same.
  - destruct (by_ipc c s) as [n|]; [apply leave_lv|now apply lv_same].
  - unfold shutdown. apply (sat_weaken _ _ _ (leave_all_lv _ _)). intros s1 _ H. exists (fun _ => true). now rewrite H, filter_true.
  - apply close_all_lv.
Qed.
Lemma leavers_asked i s l : In l (leavers i s) -> exists n, In n (s_conns s) /\ c_sock n = fst l /\ asked_to_leave (c_ipc n) i.
Proof.
  destruct i as [f c old|c ok m|c ok m|c|g|c| |]; cbn; try tauto.
  - destruct m; cbn; try tauto. destruct (by_ipc c s) as [n|] eqn:E; [|intros []]. apply by_ipc_some in E as [E1 E2]. intros [<- |[]]. exists n. auto.
  - destruct (by_ipc c s) as [n|] eqn:E; [|intros []]. apply by_ipc_some in E as [E1 E2]. intros [<- |[]]. exists n. auto.
  - intro H. apply in_map_iff in H as [n [<- H]]. exists n. auto.
Qed.
Lemma left_snoc c h i ev : left c h -> left c (h ++ [(i, ev)]).
Proof. intros [h1 [j [e [h2 [-> X]]]]]. exists h1, j, e, (h2 ++ [(i, ev)]). split; auto. now rewrite <- app_assoc. Qed.
Lemma leaving_left s h : reach s h -> forall l, In l (s_leaving s) -> exists n, In n (s_conns s) /\ c_sock n = fst l /\ left (c_ipc n) h.
Proof.
  induction 1 as [|s h i s' ev R IH P E]; [cbn; tauto|]. intros l I. pose proof (reach_inv s h R) as [W _ OP _]. pose proof (reach_inv _ _ (reach_step _ _ _ _ _ R P E)) as [W' _ _ _].
  destruct (sat_done _ _ _ _ E (step_lv i s)) as [p F]. destruct (wf_leaving _ W' l I) as [n' [J1 J2]]. rewrite F in I. apply filter_In in I as [I _].
  assert (X : exists n, In n (s_conns s) /\ c_sock n = fst l /\ left (c_ipc n) (h ++ [(i, ev)])).
  { apply in_app_or in I as [I|I].
    - destruct (IH l I) as [n [K1 [K2 K3]]]. exists n. split; auto. split; auto. now apply left_snoc.
    - apply leavers_asked in I as [n [K1 [K2 K3]]]. exists n. split; auto. split; auto. exists h, i, ev, []. split; auto. split; auto. apply OP. now apply in_map. }
  destruct X as [n [K1 [K2 K3]]]. exists n. split; auto. assert (n = n'); [|now subst].
  destruct (match i with Connected _ _ _ => true | _ => false end) eqn:NC.
  - destruct i as [f c old| | | | | | |]; try discriminate NC. cbn in E. injection E as <- <-. apply (same_sock _ n n' (wf_sock _ W')); cbn; auto; [apply in_or_app; auto|congruence].
  - assert (N : forall f c old, i <> Connected f c old) by (intros; intros ->; discriminate). pose proof (sat_done _ _ _ _ E (step_good i s W N)) as [_ [[ff G] _]].
    apply (same_sock s); [apply W|auto| |congruence]. rewrite G in J1. now apply filter_In in J1 as [J1 _].
Qed.

(* ---- what is relied on ---- *)
Lemma closed_cause h i ev c : happens (h ++ [(i, ev)]) -> In (Destroyed c) ev ->
  open c h /\
  ((exists m, i = Inward c false m) \/ (exists k, i = Outward c false (XDisconnect k)) \/ i = Broken c \/ (i = Idle /\ left c h)).
Proof.
  intros H J. destruct (happens_snoc _ _ _ H) as [s [s' [R [P [E R']]]]]. pose proof (reach_inv s h R) as [W _ OP _].
  destruct (sat_done _ _ _ _ E (step_only i s W) c J) as [n [K1 [<- K3]]]. split; [apply OP; now apply in_map|].
  destruct i as [f c old|c ok m|c ok m|c|g|c| |]; cbn in K3; try contradiction.
  - destruct K3 as [-> ->]. left. eauto.
  - destruct K3 as [-> [-> [k ->]]]. right; left. eauto.
  - subst c. auto.
  - destruct K3 as [_ [b K3]]. right; right; right. split; auto. destruct (leaving_left s h R _ K3) as [m [M1 [M2 M3]]]. rewrite (same_sock s n m); auto. apply W.
Qed.
Lemma idle_closes h ev c : happens (h ++ [(Idle, ev)]) -> orderly h -> In (Destroyed c) ev ->
  (forall g, told g c h = false) /\
  (forall p n k, n <> Connect -> (answered p n k h < asked p n k h)%nat -> exists c', c' <> c /\ open c' h /\ asked_at c' p n k h).
Proof.
  intros H O J. destruct (happens_snoc _ _ _ H) as [s [s' [R [P [E R']]]]]. pose proof (reach_inv s h R) as [W _ OP _].
  destruct (sat_done _ _ _ _ E (step_only Idle s W) c J) as [n [K1 [<- [K3 _]]]]. unfold idle_sock in K3. apply andb_true_iff in K3 as [K3 K5]. apply andb_true_iff in K3 as [K3 K4].
  apply negb_true_iff in K3, K4, K5. split.
  - intro g. destruct (told g (c_ipc n) h) eqn:T; auto. exfalso. apply (kn_told _ _ (reach_known s h R O) n g K1) in T as [fs [I1 I2]].
    assert (X : has_assoc (c_sock n) (s_assoc s) = true) by (unfold has_assoc; apply existsb_exists; exists (g, fs); split; auto; now apply existsb_eqb). congruence.
  - intros p nk k N L. rewrite (accounted s h R p nk k N) in L. destruct (count_pos (waits p nk k) (s_tasks s)) as [t [I Wt]]; [unfold waiting in L; lia|].
    destruct (reach_tight s h R O) as [T G]. destruct (G t I) as [m [ok [J1 [J2 J3]]]]. exists (c_ipc m). split; [|split; [apply OP; now apply in_map|exists ok, (k_request t); auto]].
    intro Q. assert (m = n) by (apply (same_ipc s); auto; apply W). subst m.
    assert (X : existsb (fun t => k_sock t =? c_sock n) (s_tasks s) = true) by (apply existsb_exists; exists t; split; auto; now apply Z.eqb_eq). congruence.
Qed.

(* ---- terminate ---- *)
Definition alive_ (r : result) : Prop := match r with Terminated _ => False | _ => True end.
Definition alive_at (r : result) (P : state -> Prop) : Prop := match r with Terminated _ => False | Undefined _ => True | Done s _ => P s end.
Lemma alive_bind r f (P Q : state -> Prop) : alive_at r P -> (forall s, P s -> alive_at (f s) Q) -> alive_at (bind r f) Q.
Proof. destruct r; cbn; auto. intros H F. specialize (F s H). destruct (f s); auto. Qed.
Lemma lost_alive f s : live f s -> NoDup (map c_sock (s_conns s)) -> alive_at (lost f s) (fun s' => s_conns s' = filter (fun n => negb (c_sock n =? f)) (s_conns s)).
Proof. intros [n [I <-]] N. unfold lost. rewrite (by_sock_in s n N I). reflexivity. Qed.
Lemma send_alive ok f m s : NoDup (map c_sock (s_conns s)) -> alive_at (send ok f m s) (fun _ => True).
Proof.
  intro N. unfold send. destruct (by_sock f s) as [n|] eqn:B; [|exact I]. destruct ok; [exact I|]. apply by_sock_some in B as [B1 B2]. apply (alive_bind _ _ _ _ (lost_alive f s (ex_intro _ n (conj B1 B2)) N)). intros; exact I.
Qed.
Lemma send_alive' ok f m s : NoDup (map c_sock (s_conns s)) -> exists P, alive_at (send ok f m s) P.
Proof. intros N. exists (fun _ => True). now apply send_alive. Qed.
Lemma involve_alive t f s : alive_at (involve t f s) (fun s' => s_conns s' = s_conns s).
Proof. unfold involve. destruct t as [[g b]|]; [|reflexivity]. destruct (associate _ _ _) as [first l]. destruct first; [destruct (by_sock f s)|]; reflexivity. Qed.
Lemma alive_at_true r P : alive_at r P -> alive_at r (fun _ => True).
Proof. destruct r; cbn; auto. Qed.
Lemma involve_alive' t f s : alive_at (involve t f s) (fun _ => True).
Proof. eapply alive_at_true, involve_alive. Qed.
Lemma leave_all_alive l s : alive_at (leave_all l s) (fun _ => True).
Proof. revert s. induction l as [|n l IH]; intro s; [exact I|]. cbn -[leave]. apply (alive_bind _ _ (fun _ => True)); [exact I|auto]. Qed.
Lemma terminated_only i s ev : wf s -> step i s = Terminated ev -> i = Idle.
Proof.
  intros W E. assert (C : ~ alive_at (step i s) (fun _ => True)) by (rewrite E; auto). clear E. pose proof (wf_sock _ W) as N.
  destruct i as [f c old|c ok m|c ok m|c|g|c| |]; cbn -[leave shutdown idle inward_step outward_step] in C; auto; exfalso; apply C; clear C.
  - exact I.
  - destruct (by_ipc c s) as [n|]; [|exact I]. assert (AD : forall k p w, alive_at (send ok (c_sock n) w (add_dest k p (c_sock n) s)) (fun _ => True)) by (intros; apply send_alive; now rewrite add_dest_conns).
    assert (SI : forall v q, alive_at (bind (involve (q_trid q) (c_sock n) (add_task (c_sock n) q s)) (fun s => send ok (c_sock n) (WRequest v q) s)) (fun _ => True)).
    { intros v q. apply (alive_bind _ _ _ _ (involve_alive _ _ _)). cbn. intros s1 E1. apply send_alive. now rewrite E1. }
    destruct m as [q|k data|k|r k p t data|k p data|data]; cbn.
    + destruct (q_kind q).
      * unfold call_request. destruct (has_corr _ _); [exact I|]. destruct (c_old n); [apply SI|].
        pose proof (send_alive ok (c_sock n) (WRequest false q) s N) as D. destruct (send ok (c_sock n) (WRequest false q) s); auto.
        destruct ok; [|exact I]. apply (alive_bind _ _ (fun _ => True)); [exact I|intros; apply involve_alive'].
      * unfold queue_request. apply (alive_bind _ _ _ _ (send_alive _ _ _ _ N)). intros; apply involve_alive'.
      * unfold queue_request. apply (alive_bind _ _ _ _ (send_alive _ _ _ _ N)). intros; apply involve_alive'.
      * apply SI.
    + now apply send_alive.
    + unfold disconnect_conversation. destruct (first_task k s) as [t|]; [|exact I]. destruct (q_kind (k_request t)); try exact I.
      destruct (by_sock (k_sock t) s); [|exact I]. pose proof (send_alive ok (k_sock t) (WDisconnect k) s N) as D. destruct (send ok (k_sock t) (WDisconnect k) s); auto. destruct ok; exact I.
    + apply AD.
    + destruct (s_down s); [exact I|]. destruct (is_leaving _ _); [exact I|apply AD].
    + destruct (s_down s); [exact I|]. destruct (is_leaving _ _); [exact I|now apply send_alive].
  - destruct (by_ipc c s) as [n|]; [|exact I]. destruct m as [nk k code data|k x data|r k data|k ss qs data|k]; cbn -[leave].
    + unfold task_reply. destruct (first_task k s) as [t|]; [|exact I]. destruct (kind_eqb _ nk); [|exact I]. destruct nk; exact I.
    + unfold task_send. destruct (first_task k s) as [t|]; [|exact I]. destruct (q_kind _); exact I.
    + exact I.
    + exact I.
    + apply (alive_bind _ _ (fun s' => s_conns s' = s_conns s)); [reflexivity|]. intros s1 E1. apply send_alive. now rewrite E1.
  - destruct (by_ipc c s) as [n|] eqn:B; [|exact I]. apply by_ipc_some in B as [B _]. apply (alive_bind _ _ _ _ (lost_alive (c_sock n) s (ex_intro _ n (conj B eq_refl)) N)). intros; exact I.
  - exact I.
  - destruct (by_ipc c s); exact I.
  - apply leave_all_alive.
Qed.
Lemma close_all_alive l s : NoDup (map fst l) -> (forall f b, In (f, b) l -> live f s) -> NoDup (map c_sock (s_conns s)) -> alive_at (close_all l s) (fun _ => True).
Proof.
  revert s. induction l as [|[f b] l IH]; intros s N L U; [exact I|]. inversion N as [|? ? N1 N2]; subst. cbn -[lost].
  apply (alive_bind _ _ (fun s' => s_conns s' = filter (fun n => negb (c_sock n =? f)) (s_conns s))).
  - apply (alive_bind _ _ _ _ (lost_alive f s (L f b (or_introl eq_refl)) U)). intros s1 E1. exact E1.
  - intros s1 E1. apply IH; auto.
    + intros f' b' J. destruct (L f' b') as [n [K1 K2]]; [cbn; auto|]. exists n. split; auto. rewrite E1. apply filter_In. split; auto. apply negb_true_iff, Z.eqb_neq. intro Q. apply N1. apply in_map_iff. exists (f', b'). split; auto. cbn. congruence.
    + rewrite E1. now apply NoDup_filter'.
Qed.
Lemma left_once_snoc h i ev : left_once (h ++ [(i, ev)]) -> left_once h /\ forall c, asked_to_leave c i -> open c h -> ~ left c h.
Proof.
  intro O. split.
  - intros h1 j e h2 c E. apply (O h1 j e (h2 ++ [(i, ev)]) c). now rewrite E, <- app_assoc.
  - intros c. apply (O h i ev []). reflexivity.
Qed.
Lemma NoDup_app' {A} (l1 l2 : list A) : NoDup l1 -> NoDup l2 -> (forall x, In x l1 -> ~ In x l2) -> NoDup (l1 ++ l2).
Proof.
  induction l1 as [|a l1 IH]; cbn; auto. intros N1 N2 D. inversion N1; subst. constructor.
  - rewrite in_app_iff. intros [H|H]; [auto|]. apply (D a); auto.
  - apply IH; auto.
Qed.
Lemma leaving_once s h : reach s h -> left_once h -> NoDup (map fst (s_leaving s)).
Proof.
  induction 1 as [|s h i s' ev R IH P E]; intro O; [constructor|]. apply left_once_snoc in O as [O1 O2]. specialize (IH O1). pose proof (reach_inv s h R) as [W _ OP _].
  destruct (sat_done _ _ _ _ E (step_lv i s)) as [p F]. rewrite F. apply NoDup_filter'. rewrite map_app. apply NoDup_app'; auto.
  - assert (ONE : forall c b, NoDup (map fst (match by_ipc c s with Some n => [(c_sock n, b)] | None => [] end : list leaving))) by (intros c b; destruct (by_ipc c s); cbn; repeat constructor; auto).
    destruct i as [f c old|c ok m|c ok m|c|g|c| |]; cbn [leavers]; try apply NoDup_nil.
    + destruct m; try apply NoDup_nil. apply ONE.
    + apply ONE.
    + rewrite map_map. cbn. apply W.
  - intros f I1 I2. apply in_map_iff in I1 as [l1 [<- I1]]. apply in_map_iff in I2 as [l2 [Q I2]].
    destruct (leavers_asked i s l2 I2) as [n [K1 [K2 K3]]]. destruct (leaving_left s h R l1 I1) as [m [M1 [M2 M3]]].
    assert (n = m) by (apply (same_sock s); [apply W|auto|auto|congruence]). subst m. apply (O2 (c_ipc n)); auto. apply OP. now apply in_map.
Qed.
Lemma not_terminated s h i ev : reach s h -> left_once h -> step i s <> Terminated ev.
Proof.
  intros R O E. pose proof (reach_inv s h R) as [W _ _ _]. pose proof (terminated_only i s ev W E). subst i. cbn -[idle] in E.
  assert (A : alive_at (idle s) (fun _ => True)); [|rewrite E in A; exact A]. unfold idle. apply close_all_alive.
  - apply NoDup_filter'. now apply (leaving_once s h).
  - intros f b J. apply filter_In in J as [J _]. apply (wf_leaving _ W _ J).
  - apply W.
Qed.
