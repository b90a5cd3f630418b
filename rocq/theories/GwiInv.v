(* What is always so: connections, tasks and the cache of branches. *)
From Coq Require Import ZArith List Bool Lia.
From Verif Require Import GwiModel GwiSpec GwiProofs.
Import ListNotations.
Local Open Scope Z_scope.

(* ---- tasks ---- *)
Lemma first_some k s t : first_task k s = Some t -> In t (s_tasks s) /\ t_corr t = k.
Proof. unfold first_task; intro H. apply find_some in H as [I E]. split; auto. now apply Z.eqb_eq. Qed.
Lemma in_without k l t : In t (without_task k l) -> In t l.
Proof. induction l as [|a l IH]; cbn; auto. destruct (t_corr a =? k); cbn; auto. intros [-> | I]; auto. Qed.
Lemma in_set k b l t : In t (set_task k b l) -> In t l \/ exists t0, find (fun t => t_corr t =? k) l = Some t0 /\ t = Task (k_sock t0) b.
Proof.
  induction l as [|a l IH]; cbn; auto. destruct (t_corr a =? k) eqn:E; cbn.
  - intros [<- | I]; auto. right. eauto.
  - intros [<- | I]; auto. destruct (IH I) as [J|J]; auto.
Qed.
Lemma in_put k b s t t0 : first_task k s = Some t0 -> In t (s_tasks (put_task k b s)) -> In t (s_tasks s) \/ t = Task (k_sock t0) b.
Proof. intros F I. cbn in I. apply in_set in I as [I|[t1 [F1 ->]]]; auto. unfold first_task in F. rewrite F in F1. injection F1 as <-. auto. Qed.
Lemma in_drop k s t : In t (s_tasks (drop_task k s)) -> In t (s_tasks s).
Proof. apply in_without. Qed.
Lemma in_remove k s t : In t (s_tasks (remove_tasks k s)) -> In t (s_tasks s).
Proof. cbn. intro I. now apply filter_In in I. Qed.

(* ---- the cache ---- *)
Lemma in_update g f l x : In x (update g f l) -> In x l \/ exists e, In (fst x, e) l /\ snd x = add_sock f e /\ fst x = g.
Proof.
  induction l as [|[h e] l IH]; cbn; auto. destruct (Z.eqb_spec h g) as [->|]; cbn.
  - intros [<- | I]; auto. right. exists e. cbn. auto.
  - intros [<- | I]; auto. destruct (IH I) as [J|[e' [A B]]]; auto. right. exists e'. auto.
Qed.
Lemma update_keys g f l : map fst (update g f l) = map fst l.
Proof. induction l as [|[h e] l IH]; cbn; auto. destruct (h =? g); cbn; auto. now rewrite IH. Qed.
Lemma add_sock_trid f e : e_trid (add_sock f e) = e_trid e.
Proof. unfold add_sock. now destruct (existsb _ _). Qed.
Lemma add_sock_in f e x : In x (e_socks (add_sock f e)) <-> In x (e_socks e) \/ x = f.
Proof.
  unfold add_sock. destruct (existsb _ _) eqn:E; cbn.
  - split; auto. intros [I | ->]; auto. apply existsb_exists in E as [y [I E]]. apply Z.eqb_eq in E. now subst.
  - rewrite in_app_iff; cbn. intuition auto.
Qed.
Lemma cached_some g l e : cached g l = Some e -> In (g, e) l.
Proof. unfold cached. destruct (find _ l) as [[h e']|] eqn:F; [|discriminate]. cbn. intro H; injection H as ->. apply find_some in F as [I E]. apply Z.eqb_eq in E; cbn in E. now subst. Qed.
Lemma cached_none g l e : cached g l = None -> ~ In (g, e) l.
Proof. unfold cached. destruct (find _ l) as [[h e']|] eqn:F; [discriminate|]. intros _ I. pose proof (find_none _ _ F _ I) as X. cbn in X. now rewrite Z.eqb_refl in X. Qed.
Lemma cached_in g l e : NoDup (map fst l) -> In (g, e) l -> cached g l = Some e.
Proof.
  intros N I. destruct (cached g l) as [e'|] eqn:C; [|exfalso; apply (cached_none _ _ _ C I)]. apply cached_some in C. f_equal.
  clear -N I C. induction l as [|[h x] l IH]; cbn in *; [tauto|]. inversion N as [|? ? N1 N2]; subst. destruct I as [I|I], C as [C|C]; auto; try congruence.
  - exfalso. apply N1. injection I as -> ->. apply in_map_iff. exists (g, e'). auto.
  - exfalso. apply N1. injection C as -> ->. apply in_map_iff. exists (g, e). auto.
Qed.
Lemma in_cache_left f l x : In x (cache_left f l) <-> exists e, In (fst x, e) l /\ snd x = without_sock f e /\ e_socks (snd x) <> [].
Proof.
  unfold cache_left. rewrite in_flat_map. split.
  - intros [[g e] [I J]]. cbn [fst snd] in J. destruct (e_socks (without_sock f e)) eqn:E; [destruct J|]. destruct J as [<- | []]. exists e. cbn. split; auto. split; auto. cbn in E. rewrite E. discriminate.
  - intros [e [I [E N]]]. exists (fst x, e). split; auto. cbn [fst snd]. destruct x as [g e']. cbn [fst snd] in *. subst e'. destruct (e_socks (without_sock f e)); [congruence|cbn; auto].
Qed.
Lemma cache_left_keys f l : NoDup (map fst l) -> NoDup (map fst (cache_left f l)).
Proof.
  unfold cache_left. induction l as [|[g e] l IH]; cbn -[without_sock]; auto. intro N. inversion N as [|? ? N1 N2]; subst. destruct (e_socks (without_sock f e)); cbn -[without_sock]; auto. constructor; auto.
  intro I. apply N1. apply in_map_iff in I as [[h x] [E I]]. cbn in E; subst h. apply in_cache_left in I as [e' [I _]]. apply in_map_iff. exists (g, e'). auto.
Qed.
Definition cache_after (L : list conn) (l : list (Z * entry)) := fold_left (fun l n => cache_left (c_sock n) l) L l.
Lemma in_cache_after L l g e : In (g, e) (cache_after L l) -> exists e0, In (g, e0) l /\ e_trid e = e_trid e0 /\ (forall f, In f (e_socks e) <-> In f (e_socks e0) /\ hit L f = false) /\ (e_socks e0 <> [] -> e_socks e <> []).
Proof.
  revert l. induction L as [|n L IH]; cbn [cache_after fold_left]; intros l I.
  - exists e. cbn. intuition auto.
  - apply IH in I as [e0 [I [T [F N]]]]. apply in_cache_left in I as [e1 [I [E N']]]. cbn [fst snd] in *. exists e1. split; auto. subst e0. split; [now rewrite T|]. split.
    + intro f. rewrite (F f). cbn. rewrite filter_In, negb_true_iff. unfold hit; cbn. rewrite orb_false_iff. rewrite (Z.eqb_sym f). intuition auto.
    + intros _. apply N. exact N'.
Qed.
Lemma cache_after_in L l g e0 f : In (g, e0) l -> In f (e_socks e0) -> hit L f = false -> exists e, In (g, e) (cache_after L l) /\ e_trid e = e_trid e0 /\ In f (e_socks e).
Proof.
  revert l e0. induction L as [|n L IH]; cbn [cache_after fold_left]; intros l e0 I J H.
  - exists e0. auto.
  - unfold hit in H; cbn in H. apply orb_false_iff in H as [H1 H2].
    assert (J1: In f (e_socks (without_sock (c_sock n) e0))) by (cbn; apply filter_In; split; auto; now rewrite Z.eqb_sym, H1).
    destruct (IH (cache_left (c_sock n) l) (without_sock (c_sock n) e0)) as [e [A [B C]]]; auto.
    + apply in_cache_left. exists e0. cbn [fst snd]. split; auto. split; auto. intro E. rewrite E in J1. destruct J1.
    + exists e. auto.
Qed.
Lemma cache_after_keys L l : NoDup (map fst l) -> NoDup (map fst (cache_after L l)).
Proof. revert l. induction L as [|n L IH]; cbn [cache_after fold_left]; auto. intros l N. apply IH. now apply cache_left_keys. Qed.

(* a request with a transaction *)
Definition in_cache (g : Z) (f : sock) (s : state) : Prop := exists e, cached g (s_cache s) = Some e /\ In f (e_socks e).
Lemma update_cached g f l e : cached g l = Some e -> cached g (update g f l) = Some (add_sock f e).
Proof.
  unfold cached. induction l as [|[h x] l IH]; cbn; [discriminate|]. destruct (Z.eqb_spec h g) as [->|]; cbn.
  - rewrite Z.eqb_refl. cbn. intro H; now injection H as <-.
  - destruct (Z.eqb_spec h g); [contradiction|]. auto.
Qed.
Lemma update_cached_other g g' f l : g' <> g -> cached g' (update g f l) = cached g' l.
Proof.
  intro N. unfold cached. induction l as [|[h x] l IH]; cbn; auto. destruct (Z.eqb_spec h g) as [->|]; cbn.
  - destruct (Z.eqb_spec g g'); [congruence|auto].
  - destruct (h =? g'); auto.
Qed.
Lemma with_cache_same s : with_cache (s_cache s) s = s.
Proof. now destruct s. Qed.

Inductive transacts (s : state) (f : sock) (q : request) : request -> bool -> list (Z * entry) -> list effect -> Prop :=
| T_none : q_trid q = None -> transacts s f q q false (s_cache s) []
| T_known g b e : q_trid q = Some (g, b) -> cached g (s_cache s) = Some e -> transacts s f q (with_trid (Some (e_trid e)) q) false (update g f (s_cache s)) []
| T_new g b : q_trid q = Some (g, b) -> cached g (s_cache s) = None -> transacts s f q q true (s_cache s) [Branch (handle f s) (q_corr q) g].
Definition body_of (q q' : request) (w : bool) : body := if is_service q then Service q' (q_trid q) None else Queue q' w None.
Lemma request_done on n q s s' ev : NoDup (map c_sock (s_conns s)) -> In n (s_conns s) -> request_step on n q s = Done s' ev ->
  exists q' w l e, transacts s (c_sock n) q q' w l e /\ s' = State (s_conns s) (s_tasks s ++ [Task (c_sock n) (body_of q q' w)]) l (s_leaving s) (s_down s) /\
    ev = asks_lookup on (c_ipc n) q :: e.
Proof.
  intros N I. unfold request_step.
  assert (T: forall q' w s1 e, in_transaction (c_sock n) q s = (q', w, s1, e) -> transacts s (c_sock n) q q' w (s_cache s1) e /\ s1 = with_cache (s_cache s1) s).
  { intros q' w s1 e. unfold in_transaction. destruct (q_trid q) as [[g b]|] eqn:Q.
    - unfold associate. destruct (cached g (s_cache s)) as [x|] eqn:C; intro H; injection H as <- <- <- <-.
      + split; auto. now apply (T_known s _ q g b).
      + rewrite with_cache_same. split; auto. now apply (T_new s (c_sock n) q g b).
    - intro H; injection H as <- <- <- <-. rewrite with_cache_same. split; auto. now constructor. }
  destruct (in_transaction (c_sock n) q s) as [[[q' w] s1] e] eqn:E. destruct (T _ _ _ _ eq_refl) as [T1 T2]. clear T. rewrite (handle_conn _ _ N I).
  unfold asks_lookup, body_of, is_service. destruct (q_kind q); intro H; injection H as <- <-; exists q', w, (s_cache s1), e; (split; [auto|]); rewrite T2; cbn; (split; [auto|]); destruct on; auto.
Qed.

(* ---- the invariant ---- *)
Definition sock_of (c : ipc) (f : sock) (s : state) : Prop := exists n, In n (s_conns s) /\ c_sock n = f /\ c_ipc n = c.
Definition branch_ok (q0 q : request) (h : history) : Prop :=
  q_trid q = q_trid q0 \/ exists t, q_trid q = Some t /\ from_tm t h.
(* what is known of a task of the connection c *)
Definition known (c : ipc) (b : body) (h : history) : Prop :=
  match b with
  | Service q o fnd => exists q0, asked c q0 h /\ is_service q0 = true /\ same_request q0 q /\ q_name q = q_name q0 /\ o = q_trid q0 /\ branch_ok q0 q h /\
      (forall name p, fnd = Some (name, p) -> got (ILookup (q_corr q) (Found name p)) h)
  | Queue q w fnd => exists q0, asked c q0 h /\ is_service q0 = false /\ same_request q0 q /\ q_name q = q_name q0 /\
      (w = true -> q_trid q = q_trid q0 /\ q_trid q0 <> None) /\ (w = false -> (q_trid q = None /\ q_trid q0 = None) \/ exists t, q_trid q = Some t /\ from_tm t h) /\
      (forall p, fnd = Some p -> got (IQueueLookup (q_corr q) p) h)
  | Rm r k o => exists t, asked_rm c r k t h /\ exists t', o = Some t' /\ fst t' = fst t /\ (t' = t \/ from_tm t' h)
  end.
Record inv (s : state) (h : history) : Prop := {
  i_sock : NoDup (map c_sock (s_conns s));
  i_ipc : NoDup (map c_ipc (s_conns s));
  i_open : forall c, In c (map c_ipc (s_conns s)) <-> open c h;
  i_conn : forall n, In n (s_conns s) -> In (Connected (c_sock n) (c_ipc n) (c_soft n)) (inputs h);
  i_task : forall t, In t (s_tasks s) -> exists c, sock_of c (k_sock t) s /\ known c (k_body t) h;
  i_keys : NoDup (map fst (s_cache s));
  i_cache : forall g e, In (g, e) (s_cache s) -> fst (e_trid e) = g /\ from_tm (e_trid e) h /\ e_socks e <> [] /\ (forall f, In f (e_socks e) -> exists c, sock_of c f s);
  i_leaving : forall f, In f (s_leaving s) -> exists c, sock_of c f s /\ leaves c h;
  i_gone : forall c, In (Destroyed c) (effects h) -> connected c h
}.

Lemma same_sock s m n : NoDup (map c_sock (s_conns s)) -> In m (s_conns s) -> In n (s_conns s) -> c_sock m = c_sock n -> m = n.
Proof. intros N I J E. pose proof (by_sock_in _ _ N I) as A. pose proof (by_sock_in _ _ N J) as B. rewrite E in A. congruence. Qed.
Lemma same_ipc s m n : NoDup (map c_ipc (s_conns s)) -> In m (s_conns s) -> In n (s_conns s) -> c_ipc m = c_ipc n -> m = n.
Proof.
  intros N. revert m n. induction (s_conns s) as [|a l IH]; cbn in *; [tauto|]. inversion N as [|? ? N1 N2]; subst. intros m n [<- | I] [<- | J] E; auto.
  - exfalso. apply N1. rewrite E. now apply in_map.
  - exfalso. apply N1. rewrite <- E. now apply in_map.
Qed.
Lemma sock_of_unique s c c' f : NoDup (map c_sock (s_conns s)) -> sock_of c f s -> sock_of c' f s -> c = c'.
Proof. intros N (n & I & E & <-) (m & J & F & <-). rewrite (same_sock s n m); auto. congruence. Qed.
Lemma handle_of s c f : NoDup (map c_sock (s_conns s)) -> sock_of c f s -> handle f s = c /\ exists n, by_sock f s = Some n /\ c_ipc n = c.
Proof. intros N (n & I & <- & <-). split; [now apply handle_conn|]. exists n. split; auto. now apply by_sock_in. Qed.
Lemma to_partner_of s c f m : NoDup (map c_sock (s_conns s)) -> sock_of c f s -> to_partner f m s = [ToPartner c m].
Proof. intros N S0. destruct (handle_of _ _ _ N S0) as [_ [n [B <-]]]. unfold to_partner. now rewrite B. Qed.
Lemma reach_snoc s' h i ev : reach s' (h ++ [(i, ev)]) -> exists s, reach s h /\ possible i s h /\ step i s = Done s' ev.
Proof.
  intro H. remember (h ++ [(i, ev)]) as x eqn:Q. destruct H as [|s h0 i0 s0 ev0 R P E]; [destruct h; discriminate|]. apply app_inj_tail in Q as [-> Q]. injection Q as -> ->. eauto.
Qed.
Lemma happens_snoc h i ev : happens (h ++ [(i, ev)]) -> exists s s', reach s h /\ possible i s h /\ step i s = Done s' ev /\ reach s' (h ++ [(i, ev)]).
Proof. intros [s' R]. destruct (reach_snoc _ _ _ _ R) as (s & A & B & C). exists s, s'. auto. Qed.
Lemma happens_prefix h1 h2 : happens (h1 ++ h2) -> happens h1.
Proof. induction h2 as [|[i ev] h2 IH] using rev_ind; [now rewrite app_nil_r|]. rewrite app_assoc. intro H. apply happens_snoc in H as (s & _ & R & _). apply IH. now exists s. Qed.

(* more history *)
Lemma asked_mono c q h i ev : asked c q h -> asked c q (h ++ [(i, ev)]).
Proof. intros [o I]. exists o. rewrite inputs_snoc. apply in_or_app; auto. Qed.
Lemma asked_rm_mono c r k t h i ev : asked_rm c r k t h -> asked_rm c r k t (h ++ [(i, ev)]).
Proof. intros [o [d I]]. exists o, d. rewrite inputs_snoc. apply in_or_app; auto. Qed.
Lemma got_mono m h i ev : got m h -> got m (h ++ [(i, ev)]).
Proof. intros [c [o I]]. exists c, o. rewrite inputs_snoc. apply in_or_app; auto. Qed.
Lemma got_now c ok m h ev : got m (h ++ [(Internal c ok m, ev)]).
Proof. exists c, ok. rewrite inputs_snoc. apply in_or_app; cbn; auto. Qed.
Lemma from_tm_mono t h i ev : from_tm t h -> from_tm t (h ++ [(i, ev)]).
Proof. intros [k G]. exists k. now apply got_mono. Qed.
Lemma from_tm_now c ok k t h ev : from_tm t (h ++ [(Internal c ok (IBranch k t), ev)]).
Proof. exists k. apply got_now. Qed.
Lemma branch_ok_mono q0 q h i ev : branch_ok q0 q h -> branch_ok q0 q (h ++ [(i, ev)]).
Proof. intros [E|[t [E F]]]; [now left|right]. exists t. split; auto. now apply from_tm_mono. Qed.
Lemma known_mono c b h i ev : known c b h -> known c b (h ++ [(i, ev)]).
Proof.
  destruct b as [q o fnd|q w fnd|r k o]; cbn.
  - intros (q0 & A & B & C & D & E & F & G). exists q0. split; [now apply asked_mono|]. repeat (split; [solve [auto]|]). split; [now apply branch_ok_mono|]. intros. apply got_mono. eauto.
  - intros (q0 & A & B & C & D & E & F & G). exists q0. split; [now apply asked_mono|]. repeat (split; [solve [auto]|]). split; [|intros; apply got_mono; eauto].
    intro W. destruct (F W) as [X|[t [X Y]]]; auto. right. exists t. split; auto. now apply from_tm_mono.
  - intros (t & A & t' & B & C & D). exists t. split; [now apply asked_rm_mono|]. exists t'. repeat (split; [solve [auto]|]). destruct D; auto. right. now apply from_tm_mono.
Qed.

Lemma open_mono c h i ev : (forall f c soft, i <> Connected f c soft) -> (forall c, ~ In (Destroyed c) ev) -> open c (h ++ [(i, ev)]) <-> open c h.
Proof.
  intros N D. unfold open, connected, gone. rewrite effects_snoc, inputs_snoc. split.
  - intros [[f [b I]] G]. apply in_app_or in I as [I|[I|[]]]; [|now apply N in I]. split; [eauto|]. intro X. apply G. apply in_or_app; auto.
  - intros [[f [b I]] G]. split; [exists f, b; apply in_or_app; auto|]. intro X. apply in_app_or in X as [X|X]; auto. now apply D in X.
Qed.
Lemma leaves_mono c h i ev : leaves c h -> leaves c (h ++ [(i, ev)]).
Proof. intros [o I]. exists o. rewrite inputs_snoc. apply in_or_app; auto. Qed.
Lemma connected_mono c h i ev : connected c h -> connected c (h ++ [(i, ev)]).
Proof. intros [f [b I]]. exists f, b. rewrite inputs_snoc. apply in_or_app; auto. Qed.
Definition cache_ok (s : state) (h : history) : Prop :=
  NoDup (map fst (s_cache s)) /\ forall g e, In (g, e) (s_cache s) -> fst (e_trid e) = g /\ from_tm (e_trid e) h /\ e_socks e <> [] /\ (forall f, In f (e_socks e) -> exists c, sock_of c f s).
Lemma inv_step s h i ev s' : inv s h -> s_conns s' = s_conns s -> (forall f c soft, i <> Connected f c soft) -> (forall c, ~ In (Destroyed c) ev) ->
  (forall t, In t (s_tasks s') -> In t (s_tasks s) \/ exists c, sock_of c (k_sock t) s /\ known c (k_body t) (h ++ [(i, ev)])) ->
  cache_ok s' (h ++ [(i, ev)]) -> (forall f, In f (s_leaving s') -> In f (s_leaving s) \/ exists c, sock_of c f s /\ leaves c (h ++ [(i, ev)])) -> inv s' (h ++ [(i, ev)]).
Proof.
  intros [I1 I2 I3 I4 I5 I6 I7 I8 I9] C N D T [K1 K2] LV. constructor; try (rewrite C; assumption); auto.
  - intro c. rewrite C, open_mono; auto.
  - intros n J. rewrite C in J. rewrite inputs_snoc. apply in_or_app; auto.
  - intros t J. unfold sock_of. rewrite C. destruct (T t J) as [X|X]; auto. destruct (I5 t X) as [c [A B]]. exists c. split; auto. now apply known_mono.
  - intros f J. unfold sock_of. rewrite C. destruct (LV f J) as [X|X]; auto. destruct (I8 f X) as [c [A B]]. exists c. split; auto. now apply leaves_mono.
  - intros c X. rewrite effects_snoc in X. apply in_app_or in X as [X|X]; [apply connected_mono; auto|now apply D in X].
Qed.
Lemma cache_ok_mono s s' h i ev : inv s h -> s_conns s' = s_conns s -> s_cache s' = s_cache s -> cache_ok s' (h ++ [(i, ev)]).
Proof.
  intros I C K. split; [rewrite K; apply I|]. intros g e J. rewrite K in J. destruct (i_cache s h I g e J) as (A & B & X & Y). unfold sock_of. rewrite C. split; auto. split; [now apply from_tm_mono|]. auto.
Qed.
Lemma cache_ok_update s s' h i ev g f e : inv s h -> s_conns s' = s_conns s -> cached g (s_cache s) = Some e -> (exists c, sock_of c f s) -> s_cache s' = update g f (s_cache s) -> cache_ok s' (h ++ [(i, ev)]).
Proof.
  intros I C G F K. split; [rewrite K, update_keys; apply I|]. intros g' e' J. rewrite K in J. unfold sock_of. rewrite C. apply in_update in J as [J|[e0 [J [E X]]]]; cbn in *.
  - destruct (i_cache s h I g' e' J) as (A & B & X & Y). split; auto. split; [now apply from_tm_mono|]. auto.
  - destruct (i_cache s h I g' e0 J) as (A & B & X' & Y). subst e'. rewrite add_sock_trid. split; auto. split; [now apply from_tm_mono|]. split.
    + intro Q. assert (In f (e_socks (add_sock f e0))) by (apply add_sock_in; auto). rewrite Q in H. destruct H.
    + intros x J2. apply add_sock_in in J2 as [J2 | ->]; [exact (Y x J2)|exact F].
Qed.
Lemma cache_ok_add s s' h i ev t f : inv s h -> s_conns s' = s_conns s -> (exists c, sock_of c f s) -> from_tm t (h ++ [(i, ev)]) -> s_cache s' = s_cache (cache_add t f s) -> cache_ok s' (h ++ [(i, ev)]).
Proof.
  intros I C F T K. unfold cache_add in K. destruct (cached (fst t) (s_cache s)) as [e|] eqn:G.
  - apply (cache_ok_update s s' h i ev (fst t) f e); auto.
  - cbn in K. destruct (cache_ok_mono s (with_cache (s_cache s) s) h i ev I eq_refl eq_refl) as [_ M]. split.
    + rewrite K, map_app. cbn. clear -I G. pose proof (i_keys s h I) as N. induction (s_cache s) as [|[g e] l IH]; cbn; [constructor; auto; constructor|]. cbn in N. inversion N as [|? ? N1 N2]; subst.
      unfold cached in *. cbn in G. destruct (Z.eqb_spec g (fst t)); [discriminate|]. constructor; auto. intro X. apply in_app_or in X as [X|[X|[]]]; auto.
    + intros g e J. rewrite K in J. unfold sock_of. rewrite C. apply in_app_or in J as [J|[J|[]]]; [apply (M g e J)|]. injection J as <- <-. cbn. split; auto. split; auto. split; [discriminate|]. intros x [<- | []]. auto.
Qed.
Lemma cache_add_conns t f s : s_conns (cache_add t f s) = s_conns s.
Proof. unfold cache_add. now destruct (cached _ _). Qed.
Lemma cache_add_tasks t f s : s_tasks (cache_add t f s) = s_tasks s.
Proof. unfold cache_add. now destruct (cached _ _). Qed.
Lemma cache_add_leaving t f s : s_leaving (cache_add t f s) = s_leaving s.
Proof. unfold cache_add. now destruct (cached _ _). Qed.

Lemma NoDup_filter {A B} (f : A -> B) p l : NoDup (map f l) -> NoDup (map f (filter p l)).
Proof.
  induction l as [|a l IH]; cbn; auto. intro N. inversion N as [|? ? N1 N2]; subst. destruct (p a); cbn; auto. constructor; auto.
  intro I. apply in_map_iff in I as [b [E I]]. apply filter_In in I as [I _]. apply N1. rewrite <- E. now apply in_map.
Qed.
Lemma inv_close s h i ev s' L : inv s h -> (forall f c soft, i <> Connected f c soft) -> closing L s s' ev -> inv s' (h ++ [(i, ev)]).
Proof.
  intros I N [C1 C2 C3 C4 C5 C6 C7 C8]. pose proof I as [I1 I2 I3 I4 I5 I6 I7 I8 I9].
  assert (SO: forall c f, sock_of c f s -> hit L f = false -> sock_of c f s').
  { intros c f (n & A & B & D) H. exists n. split; auto. rewrite C2. apply filter_In. split; auto. now rewrite B, H. }
  assert (HD: forall n, In n (s_conns s) -> hit L (c_sock n) = true -> In n L).
  { intros n A H. apply hit_in in H as [m [B D]]. rewrite <- (same_sock s m n); auto. }
  constructor.
  - rewrite C2. now apply NoDup_filter.
  - rewrite C2. now apply NoDup_filter.
  - intro c. rewrite C2. split.
    + intro J. apply in_map_iff in J as [n [<- J]]. apply filter_In in J as [J H]. apply negb_true_iff in H. destruct (proj1 (I3 (c_ipc n)) (in_map _ _ _ J)) as [A B]. split; [now apply connected_mono|].
      unfold gone. rewrite effects_snoc. intro X. apply in_app_or in X as [X|X]; auto. apply C6 in X. destruct X as [m [M1 M2]]. rewrite (same_ipc s m n) in M1; auto.
      rewrite (proj2 (hit_in L (c_sock n))) in H; [discriminate|eauto].
    + intros [A B]. assert (O: open c h).
      { split; [|intro X; apply B; unfold gone; rewrite effects_snoc; apply in_or_app; auto]. destruct A as [f [b A]]. exists f, b. rewrite inputs_snoc in A. apply in_app_or in A as [A|[A|[]]]; auto. now apply N in A. }
      apply I3 in O. apply in_map_iff in O as [n [<- O]]. apply in_map. apply filter_In. split; auto. destruct (hit L (c_sock n)) eqn:H; auto. exfalso. apply B. unfold gone. rewrite effects_snoc. apply in_or_app. right. auto.
  - intros n J. rewrite C2 in J. apply filter_In in J as [J _]. rewrite inputs_snoc. apply in_or_app; auto.
  - intros t J. rewrite C3 in J. apply filter_In in J as [J H]. apply negb_true_iff in H. destruct (I5 t J) as [c [A B]]. exists c. split; auto. now apply known_mono.
  - rewrite C4. now apply cache_after_keys.
  - intros g e J. rewrite C4 in J. apply in_cache_after in J as (e0 & A & B & D & E). destruct (I7 g e0 A) as (X & Y & Z0 & U). rewrite B. split; auto. split; [now apply from_tm_mono|]. split; auto.
    intros f F. apply D in F as [F H]. destruct (U f F) as [c V]. exists c. auto.
  - intros f J. rewrite C5 in J. apply filter_In in J as [J H]. apply negb_true_iff in H. destruct (I8 f J) as [c [A B]]. exists c. split; auto. now apply leaves_mono.
  - intros c X. rewrite effects_snoc in X. apply connected_mono. apply in_app_or in X as [X|X]; auto. apply C6 in X. destruct X as [n [M <-]]. apply I3. apply in_map. auto.
Qed.
Lemma no_destroyed_to f m s c : ~ In (Destroyed c) (to_partner f m s).
Proof. unfold to_partner. destruct (by_sock f s); cbn; intuition discriminate. Qed.
Lemma no_destroyed_queue f p q s c : ~ In (Destroyed c) (queue_request f p q s).
Proof. unfold queue_request. destruct p; [cbn; intuition discriminate|apply no_destroyed_to]. Qed.
Lemma known_now s h k t0 : inv s h -> first_task k s = Some t0 -> exists c, sock_of c (k_sock t0) s /\ known c (k_body t0) h /\ In t0 (s_tasks s) /\ t_corr t0 = k.
Proof. intros I F. apply first_some in F as [A B]. destruct (i_task s h I t0 A) as [c [C D]]. exists c. auto. Qed.

Lemma reach_inv s h : reach s h -> inv s h.
Proof.
  induction 1 as [|s h i s' ev R I P E].
  { constructor; cbn; try constructor; try tauto. intros [[f [b []]] _]. }
  apply step_stepd in E; [|apply I|destruct i; auto].
  assert (TI: forall (t : task), In t (s_tasks s) -> In t (s_tasks s) \/ exists c, sock_of c (k_sock t) s /\ known c (k_body t) (h ++ [(i, ev)])) by auto.
  assert (LI: forall f, In f (s_leaving s) -> In f (s_leaving s) \/ exists c, sock_of c f s /\ leaves c (h ++ [(i, ev)])) by auto.
  destruct E as [f c soft|n on q s' ev J E|n on r k t d s' ev J E|i Q|n on k d f q o name p J F K|n on k f q o name p J F K|n on k d J|n on J DC|n ok k a f q o fnd J F A|n ok k name p f q o fnd ev J F EV
    |n ok k p f q fnd J F|n ok k p f q fnd J F|n ok k t f q o fnd ev J F EV|n ok k t f q w J F|n ok k t f q w p J F|n k code d m q o fnd J J2 F K|n r k t code m k0 o J J2 F|n m w J F X|n k d J
    |f q|g|i L s' ev CL C D|c k d L s1 ev CL C D].
  - destruct P as [P1 P2]. pose proof I as [I1 I2 I3 I4 I5 I6 I7 I8 I9].
    assert (NC: forall n, In n (s_conns s) -> c_ipc n <> c) by (intros n J E; apply (P2 (c_sock n) (c_soft n)); rewrite <- E; auto).
    assert (SO: forall x y, sock_of x y s -> sock_of x y (State (s_conns s ++ [Conn f c soft]) (s_tasks s) (s_cache s) (s_leaving s) (s_down s))) by (intros x y (n & A & B); exists n; split; auto; cbn; apply in_or_app; auto).
    constructor; cbn.
    + rewrite map_app. cbn. clear -I1 P1. induction (s_conns s) as [|a l IH]; cbn in *; [constructor; auto; constructor|]. inversion I1 as [|? ? N1 N2]; subst. constructor; auto. intro X. apply in_app_or in X as [X|[X|[]]]; auto. apply (P1 a); auto.
    + rewrite map_app. cbn. clear -I2 NC. induction (s_conns s) as [|a l IH]; cbn in *; [constructor; auto; constructor|]. inversion I2 as [|? ? N1 N2]; subst. constructor; auto. intro X. apply in_app_or in X as [X|[X|[]]]; auto. apply (NC a); auto.
    + intro x. rewrite map_app, in_app_iff. cbn. unfold open, connected, gone. rewrite effects_snoc, inputs_snoc, app_nil_r. rewrite (I3 x). split.
      * intros [[[f' [b A]] B]|[<- | []]]; [split; auto; exists f', b; apply in_or_app; auto|]. split; [exists f, soft; apply in_or_app; cbn; auto|]. intro X. apply I9 in X as [f' [b X]]. now apply P2 in X.
      * intros [[f' [b A]] B]. apply in_app_or in A as [A|[A|[]]]; [left; split; [exists f', b; exact A|exact B]|]. injection A as <- <- <-. auto.
    + intros n J. rewrite inputs_snoc. apply in_or_app. apply in_app_or in J as [J|[<- | []]]; cbn; auto.
    + intros t J. destruct (I5 t J) as [x [A B]]. exists x. split; auto. now apply known_mono.
    + exact I6.
    + intros g e J. destruct (I7 g e J) as (A & B & X & Y). split; auto. split; [now apply from_tm_mono|]. split; auto. intros y Z0. destruct (Y y Z0) as [x U]. exists x. auto.
    + intros x J. destruct (I8 x J) as [y [A B]]. exists y. split; auto. now apply leaves_mono.
    + intros x J. rewrite effects_snoc, app_nil_r in J. apply connected_mono; auto.
  - destruct (request_done _ _ _ _ _ _ (i_sock s h I) J E) as (q' & w & l & e & T & -> & ->).
    assert (EX: exists c, sock_of c (c_sock n) s) by (exists (c_ipc n), n; auto).
    set (h' := h ++ _).
    assert (ASK: asked (c_ipc n) q h') by (exists on; unfold h'; rewrite inputs_snoc; apply in_or_app; cbn; auto).
    assert (FT: forall g x, cached g (s_cache s) = Some x -> from_tm (e_trid x) h') by (intros g x G; apply from_tm_mono; apply cached_some in G; now apply (i_cache s h I g x)).
    unfold h' in *. apply (inv_step s h); auto; try (intros; discriminate); cbn.
    + intros c [X|X]; [unfold asks_lookup in X; destruct (q_kind q); [| |destruct on|destruct on]; discriminate|]. destruct T; cbn in X; intuition discriminate.
    + intros t X. apply in_app_or in X as [X|[<- | []]]; auto. right. exists (c_ipc n). cbn. split; [exists n; auto|]. unfold body_of. destruct (is_service q) eqn:SV.
      * exists q. split; [exact ASK|]. split; auto. destruct T as [T|g b x T G|g b T G]; cbn; (split; [unfold same_request; cbn; auto|]); repeat (split; [solve [auto]|]); (split; [|intros; discriminate]).
        -- now left.
        -- right. exists (e_trid x). cbn. split; auto. apply (FT _ _ G).
        -- now left.
      * exists q. split; [exact ASK|]. split; auto. destruct T as [T|g b x T G|g b T G]; cbn; (split; [unfold same_request; cbn; auto|]); repeat (split; [solve [auto]|]).
        -- split; [discriminate|]. split; [auto|discriminate].
        -- split; [discriminate|]. split; [|discriminate]. intros _. right. exists (e_trid x). split; auto. apply (FT _ _ G).
        -- split; [intros _; split; congruence|]. split; [discriminate|discriminate].
    + destruct T as [T|g b x T G|g b T G].
      * now apply (cache_ok_mono s).
      * now apply (cache_ok_update s _ _ _ _ g (c_sock n) x).
      * now apply (cache_ok_mono s).
  - unfold resource_step in E. set (h' := h ++ _).
    assert (ASK: asked_rm (c_ipc n) r k t h') by (exists on, d; unfold h'; rewrite inputs_snoc; apply in_or_app; cbn; auto). unfold h' in *.
    destruct (cached (fst t) (s_cache s)) as [x|] eqn:G; injection E as <- <-.
    + apply (inv_step s h); auto; try (intros; discriminate); [intros c X; cbn in X; intuition discriminate| |now apply (cache_ok_mono s)].
      cbn. intros t0 X. apply in_app_or in X as [X|[<- | []]]; auto. right. exists (c_ipc n). cbn. split; [exists n; auto|]. exists t. split; auto. exists (e_trid x). apply cached_some in G.
      destruct (i_cache s h I _ _ G) as (A & B & _). repeat (split; [solve [auto]|]). right. now apply from_tm_mono.
    + apply (inv_step s h); auto; try (intros; discriminate); [intros c; apply no_destroyed_to| |now apply (cache_ok_mono s)].
      cbn. intros t0 X. apply in_app_or in X as [X|[<- | []]]; auto. right. exists (c_ipc n). cbn. split; [exists n; auto|]. exists t. split; auto. exists t. auto.
  - apply (inv_step s h); auto; try (now apply (cache_ok_mono s)). intros f c soft ->. destruct Q.
  - apply (inv_step s h); auto; try (intros; discriminate); [intros c X; cbn in X; intuition discriminate|now apply (cache_ok_mono s)].
  - apply (inv_step s h); auto; try (intros; discriminate); [intros c X; cbn in X; intuition discriminate| |now apply (cache_ok_mono s)]. intros t X. left. now apply in_drop in X.
  - apply (inv_step s h); auto; try (intros; discriminate); [intros c X; cbn in X; intuition discriminate|now apply (cache_ok_mono s)].
  - apply (inv_step s h); auto; try (intros; discriminate); [now apply (cache_ok_mono s)|]. cbn. intros f X. apply in_app_or in X as [X|[<- | []]]; auto. right. exists (c_ipc n). split; [exists n; auto|].
    exists on. rewrite inputs_snoc. apply in_or_app; cbn; auto.
  - apply (inv_step s h); auto; try (intros; discriminate); [intros c; apply no_destroyed_to|now apply (cache_ok_mono s)].
  - destruct (known_now _ _ _ _ I F) as (c & A & (q0 & B1 & B2 & B3 & B4 & B5 & B6 & B7) & T1 & T2). cbn in A, T2. apply (inv_step s h); auto; try (intros; discriminate); [| |now apply (cache_ok_mono s)].
    + subst ev. unfold service_request. intros x X. destruct o; [destruct (trid_eqb _ _)|]; cbn in X; intuition discriminate.
    + intros t X. apply (in_put _ _ _ _ _ F) in X as [X | ->]; auto. right. exists c. cbn. split; auto. exists q0. split; [now apply asked_mono|]. repeat (split; [solve [auto]|]). split; [now apply branch_ok_mono|].
      intros name' p' Q. injection Q as <- <-. unfold t_corr in T2; cbn in T2. rewrite T2. apply got_now.
  - destruct (known_now _ _ _ _ I F) as (c & A & (q0 & B1 & B2 & B3 & B4 & B5 & B6 & B7) & T1 & T2). cbn in A, T2. apply (inv_step s h); auto; try (intros; discriminate); [|now apply (cache_ok_mono s)].
    intros t X. apply (in_put _ _ _ _ _ F) in X as [X | ->]; auto. right. exists c. cbn. split; auto. exists q0. split; [now apply asked_mono|]. repeat (split; [solve [auto]|]). split; [discriminate|].
    intros p' Q. injection Q as <-. unfold t_corr in T2; cbn in T2. rewrite T2. apply got_now.
  - apply (inv_step s h); auto; try (intros; discriminate); [intros c; apply no_destroyed_queue| |now apply (cache_ok_mono s)]. intros t X. left. now apply in_drop in X.
  - destruct (known_now _ _ _ _ I F) as (c & A & (q0 & B1 & B2 & B3 & B4 & B5 & B6 & B7) & T1 & T2). cbn in A, T2. apply (inv_step s h); auto; try (intros; discriminate).
    + apply cache_add_conns.
    + subst ev. unfold service_request. intros x X. destruct fnd; cbn in X; intuition discriminate.
    + intros t0 X. assert (F': first_task k (cache_add t f s) = Some (Task f (Service q o fnd))) by (unfold first_task; rewrite cache_add_tasks; exact F).
      apply (in_put _ _ _ _ _ F') in X as [X | ->]; [rewrite cache_add_tasks in X; auto|]. right. exists c. cbn. split; auto. exists q0. split; [now apply asked_mono|]. split; auto. split; [unfold same_request in *; cbn; tauto|]. repeat (split; [solve [auto]|]).
      split; [right; exists t; split; auto; apply from_tm_now|]. intros. apply got_mono; eauto.
    + apply (cache_ok_add s _ h _ _ t f); auto; [apply cache_add_conns|exists c; auto|apply from_tm_now].
    + cbn. rewrite cache_add_leaving. auto.
  - destruct (known_now _ _ _ _ I F) as (c & A & (q0 & B1 & B2 & B3 & B4 & B5 & B6 & B7) & T1 & T2). cbn in A, T2. apply (inv_step s h); auto; try (intros; discriminate).
    + apply cache_add_conns.
    + intros t0 X. assert (F': first_task k (cache_add t f s) = Some (Task f (Queue q w None))) by (unfold first_task; rewrite cache_add_tasks; exact F).
      apply (in_put _ _ _ _ _ F') in X as [X | ->]; [rewrite cache_add_tasks in X; auto|]. right. exists c. cbn. split; auto. exists q0. split; [now apply asked_mono|]. split; auto. split; [unfold same_request in *; cbn; tauto|]. repeat (split; [solve [auto]|]).
      split; [discriminate|]. split; [|discriminate]. intros _. right. exists t; split; auto; apply from_tm_now.
    + apply (cache_ok_add s _ h _ _ t f); auto; [apply cache_add_conns|exists c; auto|apply from_tm_now].
    + cbn. rewrite cache_add_leaving. auto.
  - destruct (known_now _ _ _ _ I F) as (c & A & _). apply (inv_step s h); auto; try (intros; discriminate).
    + apply cache_add_conns.
    + intro x; apply no_destroyed_queue.
    + intros t0 X. apply in_drop in X. rewrite cache_add_tasks in X. auto.
    + apply (cache_ok_add s _ h _ _ t f); auto; [apply cache_add_conns|exists c; auto|apply from_tm_now].
    + cbn. rewrite cache_add_leaving. auto.
  - apply (inv_step s h); auto; try (intros; discriminate); [intros c X; cbn in X; intuition discriminate| |now apply (cache_ok_mono s)]. intros t X. left. now apply in_drop in X.
  - apply (inv_step s h); auto; try (intros; discriminate); [intros c X; cbn in X; intuition discriminate| |now apply (cache_ok_mono s)]. intros t' X. left. now apply in_drop in X.
  - apply (inv_step s h); auto; try (intros; discriminate); [intros c Y; cbn in Y; intuition discriminate|now apply (cache_ok_mono s)].
  - apply (inv_step s h); auto; try (intros; discriminate); [intros c X; cbn in X; intuition discriminate| |now apply (cache_ok_mono s)]. intros t X. left. now apply in_remove in X.
  - apply (inv_step s h); auto; try (intros; discriminate); [|now apply (cache_ok_mono s)]. intros c X. unfold undelivered in X. destruct (q_kind q); now apply no_destroyed_to in X.
  - apply (inv_step s h); auto; try (intros; discriminate). split; cbn; [apply NoDup_filter; apply I|]. intros g' e X. apply filter_In in X as [X _]. destruct (i_cache s h I g' e X) as (A & B & X' & Y). split; auto. split; [now apply from_tm_mono|]. auto.
  - apply (inv_close s h _ _ _ L); auto. intros f c soft ->. destruct CL.
  - assert (I1: inv s1 (h ++ [(Internal c false (ISend k true d), ev)])) by (apply (inv_close s h _ _ _ L); auto; intros; discriminate).
    destruct I1 as [I1 I2 I3 I4 I5 I6 I7 I8 I9]. constructor; auto. intros t X. apply in_remove in X. exact (I5 t X).
Qed.
