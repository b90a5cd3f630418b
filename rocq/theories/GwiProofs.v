(* What a step of the inbound is. *)
From Coq Require Import ZArith List Bool Lia.
From Verif Require Import GwiModel GwiSpec.
Import ListNotations.
Local Open Scope Z_scope.

Lemma count_app {A} (f : A -> bool) l1 l2 : count f (l1 ++ l2) = (count f l1 + count f l2)%nat.
Proof. induction l1; cbn; lia. Qed.
Lemma count_zero {A} (f : A -> bool) l : (forall x, In x l -> f x = false) -> count f l = 0%nat.
Proof. induction l as [|a l IH]; cbn; intro H; [reflexivity|]. rewrite (H a) by auto. rewrite IH; auto. Qed.
Lemma count_zero_inv {A} (f : A -> bool) l x : count f l = 0%nat -> In x l -> f x = false.
Proof. induction l as [|a l IH]; cbn; [tauto|]. intros H [-> | I]; [destruct (f x); [lia|auto]|apply IH; [lia|auto]]. Qed.
Lemma count_in {A} (f : A -> bool) l x : In x l -> f x = true -> (1 <= count f l)%nat.
Proof. induction l as [|a l IH]; cbn; [tauto|]. intros [-> | I] E; [rewrite E; lia|specialize (IH I E); lia]. Qed.
Lemma inputs_snoc h i ev : inputs (h ++ [(i, ev)]) = inputs h ++ [i].
Proof. unfold inputs. now rewrite map_app. Qed.
Lemma effects_snoc h i ev : effects (h ++ [(i, ev)]) = effects h ++ ev.
Proof. unfold effects. rewrite flat_map_app; cbn. now rewrite app_nil_r. Qed.
Lemma inputs_app h1 h2 : inputs (h1 ++ h2) = inputs h1 ++ inputs h2.
Proof. apply map_app. Qed.
Lemma effects_app h1 h2 : effects (h1 ++ h2) = effects h1 ++ effects h2.
Proof. apply flat_map_app. Qed.

Lemma by_sock_some f s n : by_sock f s = Some n -> In n (s_conns s) /\ c_sock n = f.
Proof. unfold by_sock; intro H. apply find_some in H as [I E]. split; auto. now apply Z.eqb_eq. Qed.
Lemma by_sock_none f s : by_sock f s = None -> forall n, In n (s_conns s) -> c_sock n <> f.
Proof. unfold by_sock; intros H n I E. apply (find_none _ _ H) in I. apply Z.eqb_neq in I. auto. Qed.
Lemma by_ipc_some c s n : by_ipc c s = Some n -> In n (s_conns s) /\ c_ipc n = c.
Proof. unfold by_ipc; intro H. apply find_some in H as [I E]. split; auto. now apply Z.eqb_eq. Qed.
Lemma by_ipc_in c s : In c (map c_ipc (s_conns s)) -> exists n, by_ipc c s = Some n.
Proof.
  intro H. destruct (by_ipc c s) as [n|] eqn:E; [eauto|]. exfalso. apply in_map_iff in H as [n [<- I]].
  unfold by_ipc in E. apply (find_none _ _ E) in I. rewrite Z.eqb_refl in I. discriminate.
Qed.
Lemma by_sock_in s n : NoDup (map c_sock (s_conns s)) -> In n (s_conns s) -> by_sock (c_sock n) s = Some n.
Proof.
  unfold by_sock. induction (s_conns s) as [|a l IH]; cbn; [tauto|]. intros N I. inversion N as [|? ? N1 N2]; subst.
  destruct I as [-> | I]; [now rewrite Z.eqb_refl|]. destruct (Z.eqb_spec (c_sock a) (c_sock n)) as [E|]; auto.
  exfalso. apply N1. rewrite E. now apply in_map.
Qed.

(* ---- connections that are closed, one after another ---- *)
Definition hit (L : list conn) (f : sock) : bool := existsb (fun n => c_sock n =? f) L.
Lemma hit_in L f : hit L f = true <-> exists n, In n L /\ c_sock n = f.
Proof. unfold hit. rewrite existsb_exists. split; intros [n [I E]]; exists n; split; auto; now apply Z.eqb_eq. Qed.
Definition harmless (L : list conn) (s : state) (e : effect) : Prop :=
  match e with
  | Destroyed c => exists n, In n L /\ c_ipc n = c
  | Discard k name => exists t q o, In t (s_tasks s) /\ hit L (k_sock t) = true /\ k_body t = Service q o None /\ q_corr q = k /\ q_name q = name
  | Active _ | Lost _ | ToRemote _ WLeave => True
  | _ => False
  end.
Record closing (L : list conn) (s s' : state) (ev : list effect) : Prop := {
  cl_in : forall n, In n L -> In n (s_conns s);
  cl_conns : s_conns s' = filter (fun n => negb (hit L (c_sock n))) (s_conns s);
  cl_tasks : s_tasks s' = filter (fun t => negb (hit L (k_sock t))) (s_tasks s);
  cl_cache : s_cache s' = fold_left (fun l n => cache_left (c_sock n) l) L (s_cache s);
  cl_leaving : s_leaving s' = filter (fun f => negb (hit L f)) (s_leaving s);
  cl_ev : forall e, In e ev -> harmless L s e;
  cl_destroyed : forall n, In n L -> In (Destroyed (c_ipc n)) ev;
  cl_discard : forall t, In t (s_tasks s) -> hit L (k_sock t) = true -> incl (failed t) ev
}.
Lemma filter_all {A} (l : list A) f : (forall x, In x l -> f x = true) -> filter f l = l.
Proof. induction l as [|a l IH]; cbn; intro H; auto. rewrite (H a) by auto. rewrite IH; auto. Qed.
Lemma filter_filter {A} (l : list A) f g : filter f (filter g l) = filter (fun x => g x && f x) l.
Proof. induction l as [|a l IH]; cbn; auto. destruct (g a) eqn:E; cbn; [destruct (f a); now rewrite IH|auto]. Qed.
Lemma closing_nil s s' ev : s_conns s' = s_conns s -> s_tasks s' = s_tasks s -> s_cache s' = s_cache s -> s_leaving s' = s_leaving s -> (forall e, In e ev -> harmless [] s e) -> closing [] s s' ev.
Proof.
  intros. constructor; auto; cbn; try tauto; try (rewrite filter_all; auto). intros t _ X. discriminate.
Qed.
Lemma harmless_weaken L L' s e : (forall n, In n L -> In n L') -> harmless L s e -> harmless L' s e.
Proof.
  intros I. destruct e; cbn; auto.
  - intros (t & q & o & A & B & C). exists t, q, o. split; auto. split; auto. apply hit_in in B as [n [N E]]. apply hit_in. eauto.
  - intros [n [N E]]; eauto.
Qed.
Lemma closing_trans L1 L2 s s1 s2 e1 e2 : closing L1 s s1 e1 -> closing L2 s1 s2 e2 -> closing (L1 ++ L2) s s2 (e1 ++ e2).
Proof.
  intros A B. assert (HA: forall f, hit (L1 ++ L2) f = hit L1 f || hit L2 f) by (intro f; unfold hit; apply existsb_app).
  constructor.
  - intros n I. apply in_app_or in I as [I|I]; [apply (cl_in _ _ _ _ A n I)|]. pose proof (cl_in _ _ _ _ B n I) as J. rewrite (cl_conns _ _ _ _ A) in J. now apply filter_In in J.
  - rewrite (cl_conns _ _ _ _ B), (cl_conns _ _ _ _ A), filter_filter. apply filter_ext. intro n. now rewrite HA, negb_orb.
  - rewrite (cl_tasks _ _ _ _ B), (cl_tasks _ _ _ _ A), filter_filter. apply filter_ext. intro n. now rewrite HA, negb_orb.
  - rewrite (cl_cache _ _ _ _ B), (cl_cache _ _ _ _ A). now rewrite fold_left_app.
  - rewrite (cl_leaving _ _ _ _ B), (cl_leaving _ _ _ _ A), filter_filter. apply filter_ext. intro n. now rewrite HA, negb_orb.
  - intros e I. apply in_app_or in I as [I|I].
    + apply (harmless_weaken L1); [intros; apply in_or_app; auto|]. now apply (cl_ev _ _ _ _ A).
    + apply (cl_ev _ _ _ _ B) in I. apply (harmless_weaken L2); [intros; apply in_or_app; auto|].
      destruct e; cbn in *; auto. destruct I as (t & q & o & X & Y). exists t, q, o. split; auto. rewrite (cl_tasks _ _ _ _ A) in X. now apply filter_In in X.
  - intros n I. apply in_or_app. apply in_app_or in I as [I|I]; [left; apply (cl_destroyed _ _ _ _ A n I)|right; apply (cl_destroyed _ _ _ _ B n I)].
  - intros t I H x X. apply in_or_app. destruct (hit L1 (k_sock t)) eqn:E; [left; apply (cl_discard _ _ _ _ A t I E x X)|].
    right. apply (cl_discard _ _ _ _ B t); auto.
    + rewrite (cl_tasks _ _ _ _ A). apply filter_In. now rewrite E.
    + now rewrite HA, E in H.
Qed.
Lemma hit_one n f : hit [n] f = (c_sock n =? f).
Proof. unfold hit; cbn. now rewrite orb_false_r. Qed.
Lemma lost_closing n s s' ev : by_sock (c_sock n) s = Some n -> lost (c_sock n) s = Done s' ev -> closing [n] s s' ev /\ s_down s' = s_down s.
Proof.
  intros B H. unfold lost in H. rewrite B in H. injection H as <- <-. split; auto. apply by_sock_some in B as [I _].
  assert (X: forall f, negb (f =? c_sock n) = negb (hit [n] f)) by (intro f; now rewrite hit_one, Z.eqb_sym).
  constructor; cbn -[hit].
  - intros m [<- | []]; auto.
  - apply filter_ext; intro; apply X.
  - apply filter_ext; intro; apply X.
  - reflexivity.
  - apply filter_ext; intro; apply X.
  - intros e [<- | J]; [exists n; cbn; auto|]. apply in_app_or in J as [J|J].
    + destruct (cache_gone _ _); cbn in J; [tauto|]. destruct J as [<- | []]. exact Logic.I.
    + apply in_flat_map in J as [t [T J]]. destruct (Z.eqb_spec (k_sock t) (c_sock n)) as [E|]; [|destruct J].
      unfold failed in J. destruct (k_body t) as [q o [d|]|q w fnd|r k o] eqn:KB; cbn in J; try tauto. destruct J as [<- | []].
      exists t, q, o. repeat (split; [auto|]); auto. rewrite hit_one, E. now rewrite Z.eqb_refl.
  - intros m [<- | []]; auto.
  - intros t T H x J. rewrite hit_one in H. right. apply in_or_app. right. apply in_flat_map. exists t. split; auto. now rewrite Z.eqb_sym, H.
Qed.
Lemma lost_done f s s' ev : lost f s = Done s' ev -> exists n, by_sock f s = Some n /\ c_sock n = f.
Proof. unfold lost. destruct (by_sock f s) as [n|] eqn:B; [|discriminate]. intros _. exists n. split; auto. now apply by_sock_some in B. Qed.
Lemma lost_closes f s s' ev : lost f s = Done s' ev -> exists n, by_sock f s = Some n /\ closing [n] s s' ev /\ s_down s' = s_down s.
Proof. intro H. destruct (lost_done _ _ _ _ H) as [n [B E]]. exists n. split; auto. subst f. now apply lost_closing. Qed.
Lemma bind_done r g s' ev : bind r g = Done s' ev -> exists s1 e1 e2, r = Done s1 e1 /\ g s1 = Done s' e2 /\ ev = e1 ++ e2.
Proof.
  destruct r as [s1 e1| |]; cbn; try discriminate. destruct (g s1) as [s2 e2| |] eqn:E; try discriminate. intro H; injection H as <- <-. eauto 6.
Qed.
(* a send: it's sent, or the connection is closed *)
Lemma send_done ok f m s s' ev n : by_sock f s = Some n -> send ok f m s = Done s' ev -> (ok = true /\ s' = s /\ ev = [ToRemote (c_ipc n) m]) \/ (ok = false /\ closing [n] s s' ev /\ s_down s' = s_down s).
Proof.
  intros B H. unfold send in H. rewrite B in H. destruct ok; [left; injection H as <- <-; auto|right]. split; auto.
  apply bind_done in H as (s1 & e1 & e2 & L & D & ->). injection D as <- <-. destruct (lost_closes _ _ _ _ L) as (m' & B' & C & D). rewrite B in B'. injection B' as <-.
  split; auto. rewrite <- (app_nil_r [n]). apply (closing_trans _ _ _ _ _ _ _ C). apply closing_nil; auto. cbn. intros e [<- | []]. exact Logic.I.
Qed.
Lemma hit_socks l s0 f : (forall x, In x l -> exists n, by_sock x s0 = Some n) -> exists L, map c_sock L = l /\ (hit L f = existsb (fun x => x =? f) l).
Proof.
  induction l as [|x l IH]; intro H; [exists []; auto|]. destruct IH as [L [E F]]; [intros; apply H; cbn; auto|]. destruct (H x) as [n B]; [cbn; auto|]. apply by_sock_some in B as [_ B].
  exists (n :: L). cbn. unfold hit in *. rewrite F, E, B. auto.
Qed.
Lemma lost_all_closing l s s' ev : lost_all l s = Done s' ev -> exists L, map c_sock L = l /\ closing L s s' ev /\ s_down s' = s_down s.
Proof.
  revert s ev. induction l as [|f l IH]; cbn; intros s ev H.
  - injection H as <- <-. exists []. split; auto. split; auto. now apply closing_nil.
  - apply bind_done in H as (s1 & e1 & e2 & L & D & ->). destruct (lost_closes _ _ _ _ L) as (n & B & C & E). destruct (IH _ _ D) as (L2 & M & C2 & E2).
    exists (n :: L2). apply by_sock_some in B as [_ B]. cbn. rewrite B, M. split; auto. split; [|congruence]. apply (closing_trans _ _ _ _ _ _ _ C C2).
Qed.
Lemma disconnect_closing ok f s s' ev : disconnect ok f s = Done s' ev -> (exists L, closing L s s' ev /\ incl (map c_sock L) [f] /\ forall n, In n L -> c_soft n = true -> ok = false) /\ s_down s' = s_down s.
Proof.
  unfold disconnect. destruct (by_sock f s) as [n|] eqn:B.
  - pose proof (by_sock_some _ _ _ B) as [_ Bf]. destruct (c_soft n) eqn:S.
    + intro H. destruct (send_done _ _ _ _ _ _ _ B H) as [(-> & -> & ->)|(-> & C & D)].
      * split; auto. exists []. split; [apply closing_nil; auto; cbn; intros e [<- | []]; exact Logic.I|]. split; [intros x []|intros x []].
      * split; auto. exists [n]. split; auto. split; [cbn; rewrite Bf; intros x X; exact X|auto].
    + intro H. destruct (lost_closes _ _ _ _ H) as (m & B' & C & D). rewrite B in B'; injection B' as <-. split; auto. exists [n]. split; auto. split; [cbn; rewrite Bf; intros x X; exact X|].
      intros m [<- | []]. congruence.
  - intro H; injection H as <- <-. split; auto. exists []. split; [now apply closing_nil|]. split; intros x [].
Qed.
Lemma closing_in_conns L s s' ev n : closing L s s' ev -> In n (s_conns s') -> In n (s_conns s).
Proof. intros C I. rewrite (cl_conns _ _ _ _ C) in I. now apply filter_In in I. Qed.
Definition unsoft (broken : list ipc) (n : conn) : Prop := c_soft n = true -> In (c_ipc n) broken.
Lemma disconnect_all_closing broken l s s' ev : NoDup (map c_sock (s_conns s)) -> (forall n, In n l -> In n (s_conns s) \/ (forall m, In m (s_conns s) -> c_sock m <> c_sock n)) ->
  disconnect_all broken l s = Done s' ev -> (exists L, closing L s s' ev /\ forall n, In n L -> unsoft broken n) /\ s_down s' = s_down s.
Proof.
  revert s ev. induction l as [|n l IH]; cbn; intros s ev N H0 H.
  - injection H as <- <-. split; auto. exists []. split; [now apply closing_nil|]. intros x [].
  - apply bind_done in H as (s1 & e1 & e2 & D & R & ->). pose proof (disconnect_closing _ _ _ _ _ D) as [(L & C & I1 & I2) D1].
    assert (N1: NoDup (map c_sock (s_conns s1))).
    { rewrite (cl_conns _ _ _ _ C). clear -N. induction (s_conns s) as [|a r IH]; cbn in *; auto. inversion N as [|? ? X Y]; subst. destruct (negb _); cbn; auto. constructor; auto.
      intro I. apply in_map_iff in I as [b [E I]]. apply filter_In in I as [I _]. apply X. rewrite <- E. now apply in_map. }
    assert (H1: forall m, In m l -> In m (s_conns s1) \/ (forall m', In m' (s_conns s1) -> c_sock m' <> c_sock m)).
    { intros m M. destruct (H0 m (or_intror M)) as [J|J].
      - destruct (hit L (c_sock m)) eqn:E.
        + right. intros m' M' E'. rewrite (cl_conns _ _ _ _ C) in M'. apply filter_In in M' as [_ M']. rewrite E', E in M'. discriminate.
        + left. rewrite (cl_conns _ _ _ _ C). apply filter_In. now rewrite E.
      - right. intros m' M'. apply J. now apply (closing_in_conns _ _ _ _ _ C). }
    destruct (IH _ _ N1 H1 R) as [(L2 & C2 & I3) D2]. split; [|congruence]. exists (L ++ L2). split; [apply (closing_trans _ _ _ _ _ _ _ C C2)|].
    intros m M. apply in_app_or in M as [M|M]; auto. intro SF.
    assert (E: c_sock m = c_sock n) by (specialize (I1 (c_sock m) (in_map c_sock _ _ M)); destruct I1 as [E|[]]; congruence).
    pose proof (cl_in _ _ _ _ C _ M) as MI. destruct (H0 n (or_introl eq_refl)) as [J|J]; [|exfalso; exact (J m MI E)].
    assert (m = n).
    { pose proof (by_sock_in _ _ N MI) as X. pose proof (by_sock_in _ _ N J) as Y. rewrite E in X. congruence. } subst m.
    specialize (I2 n M SF). apply negb_false_iff in I2. apply existsb_exists in I2 as [x [X Y]]. apply Z.eqb_eq in Y. now subst.
Qed.

(* a message that is passed on as it is to the remote of the connection whose device it arrives at *)
Definition forwarded (m : internal) : option wire :=
  match m with
  | IReply Call _ _ _ => None
  | IReply nk k code data => Some (WReply nk k code data)
  | ISend k terminated data => Some (WSend k terminated data)
  | IDiscovered k data => Some (WDiscovered k data)
  | IUpdate data => Some (WUpdate data)
  | _ => None
  end.
Definition closes (i : input) (s : state) (L : list conn) : Prop :=
  match i with
  | External c _ XLeave => exists n, L = [n] /\ c_ipc n = c /\ disconnectable (c_sock n) s = true
  | Internal c false m => exists n, L = [n] /\ c_ipc n = c /\ forwarded m <> None
  | Broken c => exists n, L = [n] /\ c_ipc n = c
  | Remove c ok => forall n, In n L -> c_ipc n = c /\ (c_soft n = true -> ok = false)
  | Shutdown broken => forall n, In n L -> unsoft broken n
  | Idle => forall f, hit L f = existsb (Z.eqb f) (filter (fun f => disconnectable f s) (s_leaving s))
  | _ => False
  end.
(* nothing comes of it *)
Definition quiet (i : input) : Prop :=
  match i with
  | External _ _ (XSend _ _) | External _ _ (XDisconnect _) => True
  | Internal _ _ m => match m with ILookup _ _ | IQueueLookup _ _ | IBranch _ _ | IReply Call _ _ _ | IResource _ _ _ _ => True | _ => False end
  | _ => False
  end.

Inductive stepd (s : state) : input -> state -> list effect -> Prop :=
| D_connected f c soft : stepd s (Connected f c soft) (State (s_conns s ++ [Conn f c soft]) (s_tasks s) (s_cache s) (s_leaving s) (s_down s)) []
| D_request n on q s' ev : In n (s_conns s) -> request_step on n q s = Done s' ev -> stepd s (External (c_ipc n) on (XRequest q)) s' ev
| D_resource n on r k t d s' ev : In n (s_conns s) -> resource_step n r k t d s = Done s' ev -> stepd s (External (c_ipc n) on (XResource r k t d)) s' ev
| D_quiet i : quiet i -> stepd s i s []
| D_peer n on k d f q o name p : In n (s_conns s) -> first_task k s = Some (Task f (Service q o (Some (name, p)))) -> q_kind q = Connect -> stepd s (External (c_ipc n) on (XSend k d)) s [ToPeer p k d]
| D_over n on k f q o name p : In n (s_conns s) -> first_task k s = Some (Task f (Service q o (Some (name, p)))) -> q_kind q = Connect ->
    stepd s (External (c_ipc n) on (XDisconnect k)) (drop_task k s) [ToPeerDisconnect p k]
| D_discover n on k d : In n (s_conns s) -> stepd s (External (c_ipc n) on (XDiscover k d)) s [Discover (c_ipc n) k d]
| D_later n on : In n (s_conns s) -> disconnectable (c_sock n) s = false ->
    stepd s (External (c_ipc n) on XLeave) (State (s_conns s) (s_tasks s) (s_cache s) (s_leaving s ++ [c_sock n]) (s_down s)) []
| D_unfound n ok k a f q o fnd : In n (s_conns s) -> first_task k s = Some (Task f (Service q o fnd)) -> a = Absent \/ a = Timeout ->
    stepd s (Internal (c_ipc n) ok (ILookup k a)) s (to_partner f (IReply (q_kind q) k (match a with Absent => TPENOENT | _ => TPETIME end) 0) s)
| D_found n ok k name p f q o fnd ev : In n (s_conns s) -> first_task k s = Some (Task f (Service q o fnd)) ->
    ev = (match o with None => service_request f (name, p) q s | Some _ => if trid_eqb o (q_trid q) then [] else service_request f (name, p) q s end) ->
    stepd s (Internal (c_ipc n) ok (ILookup k (Found name p))) (put_task k (Service q o (Some (name, p))) s) ev
| D_qwait n ok k p f q fnd : In n (s_conns s) -> first_task k s = Some (Task f (Queue q true fnd)) ->
    stepd s (Internal (c_ipc n) ok (IQueueLookup k p)) (put_task k (Queue q true (Some p)) s) []
| D_qsend n ok k p f q fnd : In n (s_conns s) -> first_task k s = Some (Task f (Queue q false fnd)) ->
    stepd s (Internal (c_ipc n) ok (IQueueLookup k p)) (drop_task k s) (queue_request f p q s)
| D_branch n ok k t f q o fnd ev : In n (s_conns s) -> first_task k s = Some (Task f (Service q o fnd)) ->
    ev = (match fnd with Some d => service_request f d (with_trid (Some t) q) s | None => [] end) ->
    stepd s (Internal (c_ipc n) ok (IBranch k t)) (put_task k (Service (with_trid (Some t) q) o fnd) (cache_add t f s)) ev
| D_qbranch n ok k t f q w : In n (s_conns s) -> first_task k s = Some (Task f (Queue q w None)) ->
    stepd s (Internal (c_ipc n) ok (IBranch k t)) (put_task k (Queue (with_trid (Some t) q) false None) (cache_add t f s)) []
| D_qbranch_send n ok k t f q w p : In n (s_conns s) -> first_task k s = Some (Task f (Queue q w (Some p))) ->
    stepd s (Internal (c_ipc n) ok (IBranch k t)) (drop_task k (cache_add t f s)) (queue_request f p (with_trid (Some t) q) s)
| D_reply n k code d m q o fnd : In n (s_conns s) -> In m (s_conns s) -> first_task k s = Some (Task (c_sock m) (Service q o fnd)) -> q_kind q = Call ->
    stepd s (Internal (c_ipc n) true (IReply Call k code d)) (drop_task k s) [ToRemote (c_ipc m) (WReply Call k code d)]
| D_rmreply n r k t code m k0 o : In n (s_conns s) -> In m (s_conns s) -> first_task k s = Some (Task (c_sock m) (Rm r k0 o)) ->
    stepd s (Internal (c_ipc n) true (IResource r k t code)) (drop_task k s) [ToRemote (c_ipc m) (WResource r k o code)]
| D_forward n m w : In n (s_conns s) -> forwarded m = Some w -> (forall k d, m <> ISend k true d) -> stepd s (Internal (c_ipc n) true m) s [ToRemote (c_ipc n) w]
| D_terminated n k d : In n (s_conns s) -> stepd s (Internal (c_ipc n) true (ISend k true d)) (remove_tasks k s) [ToRemote (c_ipc n) (WSend k true d)]
| D_undelivered f q : stepd s (Undelivered f q) s (undelivered f q s)
| D_disassociate g : stepd s (Disassociate g) (with_cache (filter (fun x => negb (fst x =? g)) (s_cache s)) s) []
| D_close i L s' ev : closes i s L -> closing L s s' ev -> s_down s' = (match i with Shutdown _ => true | _ => s_down s end) -> stepd s i s' ev
| D_close_over c k d L s1 ev : closes (Internal c false (ISend k true d)) s L -> closing L s s1 ev -> s_down s1 = s_down s -> stepd s (Internal c false (ISend k true d)) (remove_tasks k s1) ev.

Lemma handle_conn s n : NoDup (map c_sock (s_conns s)) -> In n (s_conns s) -> handle (c_sock n) s = c_ipc n.
Proof. intros N I. unfold handle. now rewrite (by_sock_in _ _ N I). Qed.
Lemma reply_and_drop_done ok k f m s s' ev : reply_and_drop ok k f m s = Done s' ev -> exists n, In n (s_conns s) /\ c_sock n = f /\ ok = true /\ s' = drop_task k s /\ ev = [ToRemote (c_ipc n) m].
Proof.
  unfold reply_and_drop. destruct (by_sock f s) as [n|] eqn:B; [|discriminate]. destruct (send ok f m s) as [s1 e1| |] eqn:E; try discriminate. destruct ok; [|discriminate].
  intro H; injection H as <- <-. destruct (send_done _ _ _ _ _ _ _ B E) as [(_ & -> & ->)|(X & _)]; [|discriminate]. apply by_sock_some in B as [I F]. exists n. auto.
Qed.
Lemma idle_closing s s' ev : idle s = Done s' ev -> exists L, closing L s s' ev /\ closes Idle s L /\ s_down s' = s_down s.
Proof.
  unfold idle. intro H. destruct (lost_all_closing _ _ _ _ H) as (L & M & C & D). cbn in D.
  assert (HL: forall f, hit L f = existsb (Z.eqb f) (filter (fun f => disconnectable f s) (s_leaving s))).
  { intro f. rewrite <- M. unfold hit. clear. induction L as [|a l IH]; cbn; auto. now rewrite IH, Z.eqb_sym. }
  exists L. split; [|split; auto]. destruct C as [C1 C2 C3 C4 C5 C6 C7 C8]; cbn in *. constructor; auto.
  rewrite C5. rewrite filter_filter. apply filter_ext_in. intros f I. rewrite HL.
  destruct (existsb (Z.eqb f) (filter (fun f => disconnectable f s) (s_leaving s))) eqn:E; cbn; [now rewrite andb_false_r|]. rewrite andb_true_r.
  destruct (disconnectable f s) eqn:F; auto. exfalso. apply Bool.not_true_iff_false in E. apply E. apply existsb_exists. exists f. rewrite Z.eqb_refl. split; auto. apply filter_In; auto.
Qed.
Lemma step_stepd i s s' ev : NoDup (map c_sock (s_conns s)) -> (match i with External c _ _ | Internal c _ _ | Broken c | Remove c _ => In c (map c_ipc (s_conns s)) | _ => True end) ->
  step i s = Done s' ev -> stepd s i s' ev.
Proof.
  intros N P H. destruct i as [f c soft|c on m|c ok m|f q|c|g|c ok|broken|]; cbn in H.
  - injection H as <- <-. constructor.
  - destruct (by_ipc_in _ _ P) as [n B]. rewrite B in H. apply by_ipc_some in B as [I <-].
    destruct m as [q|k d|k|r k t d|k d|]; cbn in H.
    + now apply D_request.
    + destruct (first_task k s) as [[f [q o [[name p]|]|q w fnd|r k0 o]]|] eqn:F; cbn in H; try (injection H as <- <-; now apply D_quiet).
      * destruct (q_kind q) eqn:K; injection H as <- <-; try (now apply D_quiet). now apply (D_peer s n on k d f q o name p).
      * destruct (q_kind q) eqn:K; try discriminate; injection H as <- <-; now apply D_quiet.
    + destruct (first_task k s) as [[f [q o [[name p]|]|q w fnd|r k0 o]]|] eqn:F; cbn in H; try (injection H as <- <-; now apply D_quiet).
      * destruct (q_kind q) eqn:K; injection H as <- <-; try (now apply D_quiet). now apply (D_over s n on k f q o name p).
      * destruct (q_kind q) eqn:K; try discriminate; injection H as <- <-; now apply D_quiet.
    + now apply D_resource.
    + injection H as <- <-. rewrite (handle_conn _ _ N I). now apply D_discover.
    + destruct (disconnectable (c_sock n) s) eqn:DC.
      * destruct (lost_closes _ _ _ _ H) as (m & B & C & D). rewrite (by_sock_in _ _ N I) in B; injection B as <-. apply (D_close _ _ [n]); auto. cbn. exists n. auto.
      * injection H as <- <-. now apply D_later.
  - destruct (by_ipc_in _ _ P) as [n B]. rewrite B in H. apply by_ipc_some in B as [I <-]. pose proof (by_sock_in _ _ N I) as BS.
    assert (FW: forall m w, forwarded m = Some w -> (forall k d, m <> ISend k true d) -> send ok (c_sock n) w s = Done s' ev -> stepd s (Internal (c_ipc n) ok m) s' ev).
    { intros m0 w F X H0. destruct (send_done _ _ _ _ _ _ _ BS H0) as [(-> & -> & ->)|(-> & C & D)]; [now apply D_forward|]. apply (D_close _ _ [n]); auto. cbn. exists n. split; auto. split; auto. congruence. }
    destruct m as [k a|k p|k t|nk k code d|k term d|r k t code|k d|d]; cbn in H.
    + unfold lookup_reply in H. destruct (first_task k s) as [[f [q o fnd|q w fnd|r k0 o]]|] eqn:F; try (injection H as <- <-; now apply D_quiet).
      destruct a as [name p| |]; injection H as <- <-.
      * now apply (D_found s n ok k name p f q o fnd).
      * apply (D_unfound s n ok k Absent f q o fnd); auto.
      * apply (D_unfound s n ok k Timeout f q o fnd); auto.
    + unfold queue_lookup_reply in H. destruct (first_task k s) as [[f [q o fnd|q w fnd|r k0 o]]|] eqn:F; try (injection H as <- <-; now apply D_quiet).
      destruct w; injection H as <- <-; [now apply (D_qwait s n ok k p f q fnd)|now apply (D_qsend s n ok k p f q fnd)].
    + unfold branch_reply in H. destruct (first_task k s) as [[f [q o fnd|q w [p|]|r k0 o]]|] eqn:F; try (injection H as <- <-; now apply D_quiet); injection H as <- <-.
      * now apply (D_branch s n ok k t f q o fnd).
      * now apply (D_qbranch_send s n ok k t f q w p).
      * now apply (D_qbranch s n ok k t f q w).
    + destruct nk; try (refine (FW _ _ _ _ H); [reflexivity|congruence]).
      unfold call_reply in H. destruct (first_task k s) as [[f [q o fnd|q w fnd|r k0 o]]|] eqn:F; try (injection H as <- <-; now apply D_quiet).
      destruct (q_kind q) eqn:K; try (injection H as <- <-; now apply D_quiet). destruct (reply_and_drop_done _ _ _ _ _ _ _ H) as (m & M & <- & -> & -> & ->).
      now apply (D_reply s n k code d m q o fnd).
    + apply bind_done in H as (s1 & e1 & e2 & S1 & D & ->). destruct term.
      * injection D as <- <-. rewrite app_nil_r. destruct (send_done _ _ _ _ _ _ _ BS S1) as [(-> & -> & ->)|(-> & C & D)]; [now apply D_terminated|].
        apply (D_close_over s _ k d [n]); auto. cbn. exists n. split; auto. split; auto. congruence.
      * injection D as <- <-. rewrite app_nil_r. destruct (send_done _ _ _ _ _ _ _ BS S1) as [(-> & -> & ->)|(-> & C & D)]; [now apply D_forward|].
        apply (D_close _ _ [n]); auto. cbn. exists n. split; auto. split; auto. congruence.
    + unfold resource_reply in H. destruct (first_task k s) as [[f [q o fnd|q w fnd|r' k0 o]]|] eqn:F; try (injection H as <- <-; now apply D_quiet).
      destruct (resource_eqb r r') eqn:R; [|injection H as <- <-; now apply D_quiet]. destruct (reply_and_drop_done _ _ _ _ _ _ _ H) as (m & M & <- & -> & -> & ->).
      assert (r = r') by (destruct r, r'; auto; discriminate). subst r'. now apply (D_rmreply s n r k t code m k0 o).
    + refine (FW _ _ _ _ H); [reflexivity|congruence].
    + refine (FW _ _ _ _ H); [reflexivity|congruence].
  - injection H as <- <-. constructor.
  - destruct (by_ipc_in _ _ P) as [n B]. rewrite B in H. apply by_ipc_some in B as [I <-]. apply bind_done in H as (s1 & e1 & e2 & L & D & ->). injection D as <- <-.
    destruct (lost_closes _ _ _ _ L) as (m & B & C & D). rewrite (by_sock_in _ _ N I) in B; injection B as <-. apply (D_close _ _ [n]); auto; [cbn; exists n; auto|].
    rewrite <- (app_nil_r [n]). apply (closing_trans _ _ _ _ _ _ _ C). apply closing_nil; auto. cbn. intros e [<- | []]. exact Logic.I.
  - injection H as <- <-. constructor.
  - destruct (by_ipc_in _ _ P) as [n B]. rewrite B in H. apply by_ipc_some in B as [I <-]. destruct (disconnect_closing _ _ _ _ _ H) as [(L & C & I1 & I2) D]. apply (D_close _ _ L); auto.
    cbn. intros m M. split; [|exact (I2 m M)]. specialize (I1 _ (in_map c_sock _ _ M)). destruct I1 as [E|[]]. pose proof (by_sock_in _ _ N (cl_in _ _ _ _ C _ M)) as X. rewrite <- E, (by_sock_in _ _ N I) in X. congruence.
  - unfold shutdown in H. apply disconnect_all_closing in H; cbn in *; auto. destruct H as [(L & C & U) D]. apply (D_close _ _ L); auto. destruct C as [C1 C2 C3 C4 C5 C6 C7 C8]; cbn in *. constructor; auto.
  - destruct (idle_closing _ _ _ H) as (L & C & X & D). apply (D_close _ _ L); auto.
Qed.
