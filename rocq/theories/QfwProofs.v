(* The invariant of the queue forward, by the stories of the flows. *)
From Coq Require Import ZArith List Bool Lia FinFun.
From Verif Require Import QfwModel QfwSpec.
Import ListNotations.
Local Open Scope Z_scope.

(* ---- lists ---- *)
Lemma last_of_snoc {A} (l : list A) x : last_of (l ++ [x]) = Some x.
Proof. unfold last_of. now rewrite rev_unit. Qed.
Lemma last_of_some {A} (l : list A) x : last_of l = Some x -> exists l', l = l' ++ [x].
Proof. unfold last_of. destruct (rev l) as [|y r] eqn:E; [discriminate|]. intro H; injection H as ->. exists (rev r). rewrite <- (rev_involutive l), E. reflexivity. Qed.
Lemma last_of_none {A} (l : list A) : last_of l = None -> l = [].
Proof. unfold last_of. destruct (rev l) as [|y r] eqn:E; [|discriminate]. intros _. rewrite <- (rev_involutive l), E. reflexivity. Qed.
Lemma nodup_app {A} (l r : list A) : NoDup l -> NoDup r -> (forall x, In x l -> ~ In x r) -> NoDup (l ++ r).
Proof.
  induction l as [|a l IH]; cbn; auto. intros N M D. inversion N as [|? ? X Y]; subst. constructor.
  - intro I. apply in_app_or in I as [I|I]; [now apply X|]. apply (D a); auto.
  - apply IH; auto.
Qed.
Lemma nodup_app_inv {A} (l r : list A) : NoDup (l ++ r) -> NoDup l /\ NoDup r /\ (forall x, In x l -> ~ In x r).
Proof.
  induction l as [|a l IH]; cbn; intro N; [repeat split; auto; constructor|]. inversion N as [|? ? X Y]; subst. destruct (IH Y) as (P & Q & R). split; [|split]; auto.
  - constructor; auto. intro I. apply X, in_or_app; auto.
  - intros x [->|I] J; [apply X, in_or_app; auto|now apply (R x)].
Qed.
Lemma nodup_map_filter {A B} (g : A -> B) (p : A -> bool) l : NoDup (map g l) -> NoDup (map g (filter p l)).
Proof.
  induction l as [|a l IH]; cbn; auto. intro N. inversion N as [|? ? X Y]; subst. destruct (p a); cbn; auto. constructor; auto.
  intro I. apply X. apply in_map_iff in I as [b [E J]]. apply filter_In in J as [J _]. rewrite <- E. now apply in_map.
Qed.
Lemma nodup_inj {A B} (g : A -> B) l x y : NoDup (map g l) -> In x l -> In y l -> g x = g y -> x = y.
Proof.
  induction l as [|a l IH]; cbn; [tauto|]. intros N X Y E. inversion N as [|? ? P Q]; subst. destruct X as [->|X], Y as [->|Y]; auto.
  - exfalso. apply P. rewrite E. now apply in_map.
  - exfalso. apply P. rewrite <- E. now apply in_map.
Qed.

(* ---- what doesn't change of a forward ---- *)
Definition sta : Type := Z * option Z * Z * option (Z * Z) * bool.
Definition static (f : forward) : Z * sta :=
  (f_id f, (f_alias f, f_service f, r_name (f_source f), option_map (fun d => (r_name (fst d), snd d)) (f_dest f), f_enabled f)).
Definition conf_sta (c : conf) : sta := (g_alias c, g_service c, g_source c, g_dest c, g_enabled c).
Definition statics (s : state) : list (Z * sta) := map static (s_forwards s).

Definition matches (p : pend) (x : input * effect) : Prop :=
  match p_stage p, snd x with
  | Deq, Dequeue _ _ _ _ _ _ | Disc, AskService _ _ | Calling, Call _ _ _ _ _ | Enq, Enqueue _ _ _ _ _ _ _ | Com, Commit _ _ | Rol, Rollback _ _ => True
  | LookS, AskService _ _ => fst x = Dequeued (p_corr p) (Some (p_data p))
  | _, _ => False
  end.
Definition pend_ok (C : conf -> Prop) (s : state) (st : Z -> list (input * effect)) (p : pend) : Prop :=
  match p_stage p with
  | LookQ => st (p_corr p) = [] /\ In (p_fwd p) (map fst (statics s))
  | _ => exists c x, C c /\ In (p_fwd p, conf_sta c) (statics s) /\ story c (p_fwd p) (p_corr p) (p_corr p + 1) (st (p_corr p))
         /\ last_of (st (p_corr p)) = Some x /\ matches p x /\ p_trid p = p_corr p + 1
  end.
Record Inv (C : conf -> Prop) (s : state) (st : Z -> list (input * effect)) : Prop := {
  i_nodup : NoDup (map p_corr (s_pending s));
  i_old : forall p, In p (s_pending s) -> p_corr p < s_next s;
  i_fresh : forall k, s_next s <= k -> st k = [];
  i_pend : forall p, In p (s_pending s) -> pend_ok C s st p;
  i_story : forall k, st k = [] \/ exists c f, C c /\ In (f, conf_sta c) (statics s) /\ story c f k (k + 1) (st k);
  i_sta : forall a, In a (statics s) -> exists c, C c /\ conf_ok c /\ snd a = conf_sta c;
  i_ids : map fst (statics s) = map Z.of_nat (seq 1 (length (s_forwards s)))
}.

Definition ext (i : input) (ev : list effect) (st : Z -> list (input * effect)) (k : Z) : list (input * effect) := st k ++ map (pair i) (filter (about k) ev).
Lemma ext_nil i st k : ext i [] st k = st k.
Proof. unfold ext. cbn. apply app_nil_r. Qed.
Lemma ext_app i a b st k : ext i (a ++ b) st k = ext i b (ext i a st) k.
Proof. unfold ext. rewrite filter_app, map_app. apply app_assoc. Qed.
Definition flowless (ev : list effect) : Prop := forall k, filter (about k) ev = [].
Lemma ext_flowless i ev st k : flowless ev -> ext i ev st k = st k.
Proof. intro F. unfold ext. rewrite (F k). apply app_nil_r. Qed.
Lemma flowless_nil : flowless [].
Proof. now intro. Qed.
Lemma flowless_app a b : flowless a -> flowless b -> flowless (a ++ b).
Proof. intros A B k. now rewrite filter_app, (A k), (B k). Qed.
Lemma flowless_all ev : (forall e, In e ev -> forall k, about k e = false) -> flowless ev.
Proof. intros H k. induction ev as [|e ev IH]; cbn; auto. rewrite (H e (or_introl eq_refl) k). apply IH. intros x I. apply H. now right. Qed.
Lemma flowless_map {A} (g : A -> effect) l : (forall a k, about k (g a) = false) -> flowless (map g l).
Proof. intro H. apply flowless_all. intros e I. apply in_map_iff in I as [a [<- _]]. apply H. Qed.

Lemma pend_ok_eq C s s' st st' p : statics s' = statics s -> st (p_corr p) = st' (p_corr p) -> pend_ok C s st p -> pend_ok C s' st' p.
Proof. intros E F. unfold pend_ok. now rewrite E, F. Qed.
Lemma inv_eq C s st st' : (forall k, st' k = st k) -> Inv C s st -> Inv C s st'.
Proof.
  intros E [A B F P T S D]. split; auto.
  - intros k L. rewrite E. auto.
  - intros p I. apply (pend_ok_eq C s s st); auto.
  - intro k. rewrite E. auto.
Qed.
Lemma statics_ids s : map fst (statics s) = map f_id (s_forwards s).
Proof. unfold statics. rewrite map_map. reflexivity. Qed.
Lemma inv_nodup_ids C s st : Inv C s st -> NoDup (map f_id (s_forwards s)).
Proof.
  intro H. rewrite <- statics_ids, (i_ids _ _ _ H). apply Injective_map_NoDup; [|apply seq_NoDup]. intros a b. apply Nat2Z.inj.
Qed.
(* anything that has the same statics, pendings and next *)
Lemma inv_static C s s' st : Inv C s st -> statics s' = statics s -> s_pending s' = s_pending s -> s_next s' = s_next s -> Inv C s' st.
Proof.
  intros [A B F P T S D] E P' N. assert (L : length (s_forwards s') = length (s_forwards s)) by (rewrite <- (map_length static (s_forwards s')), <- (map_length static (s_forwards s)); unfold statics in E; now rewrite E).
  split; rewrite ?P', ?N, ?E, ?L; auto. intros p I. apply (pend_ok_eq C s s' st); auto.
Qed.
Lemma inv_filter C s st g : Inv C s st -> Inv C (with_pending (filter g (s_pending s)) s) st.
Proof.
  intros [A B F P T S D]. split; cbn [s_pending with_pending s_next s_forwards]; auto.
  - now apply nodup_map_filter.
  - intros p I. apply filter_In in I as [I _]. auto.
  - intros p I. apply filter_In in I as [I _]. apply (pend_ok_eq C s _ st); auto.
Qed.

Lemma stage_eqb_eq a b : stage_eqb a b = true <-> a = b.
Proof. split; [destruct a, b; cbn; congruence|intros ->; now destruct b]. Qed.
Lemma is_spec st k p : is st k p = true <-> p_stage p = st /\ p_corr p = k.
Proof. unfold is. rewrite andb_true_iff, stage_eqb_eq, Z.eqb_eq. reflexivity. Qed.
Definition but (k : Z) (l : list pend) : list pend := filter (fun p => negb (p_corr p =? k)) l.
Lemma but_id k l : ~ In k (map p_corr l) -> but k l = l.
Proof.
  unfold but. induction l as [|a l IH]; cbn; auto. intro H. destruct (p_corr a =? k) eqn:E; cbn; [apply Z.eqb_eq in E; tauto|]. f_equal. apply IH. tauto.
Qed.
Lemma in_but k l p : In p (but k l) <-> In p l /\ p_corr p <> k.
Proof. unfold but. rewrite filter_In, negb_true_iff, Z.eqb_neq. tauto. Qed.
Lemma remove_first_but st k l x : NoDup (map p_corr l) -> find (is st k) l = Some x -> remove_first (is st k) l = but k l.
Proof.
  induction l as [|a l IH]; cbn [find remove_first map]; [discriminate|]. intros N. inversion N as [|? ? X Y]; subst. destruct (is st k a) eqn:E.
  - intros _. apply is_spec in E as [_ E]. unfold but. cbn. rewrite E, Z.eqb_refl. cbn. symmetry. apply but_id. now rewrite <- E.
  - intro F. pose proof (IH Y F) as G. unfold but. cbn [filter]. destruct (p_corr a =? k) eqn:K; cbn [negb].
    + exfalso. apply X. apply find_some in F as [F1 F2]. apply is_spec in F2 as [_ F2]. apply Z.eqb_eq in K. rewrite K, <- F2. now apply in_map.
    + f_equal. exact G.
Qed.
Lemma consume_spec st k s x s1 : NoDup (map p_corr (s_pending s)) -> consume st k s = Some (x, s1) ->
  In x (s_pending s) /\ p_stage x = st /\ p_corr x = k /\ s1 = with_pending (but k (s_pending s)) s.
Proof.
  intro N. unfold consume. destruct (find (is st k) (s_pending s)) as [p|] eqn:E; [|discriminate]. intro H; injection H as -> <-.
  rewrite (remove_first_but st k _ x N E). apply find_some in E as [E1 E2]. apply is_spec in E2 as [E2 E3]. auto.
Qed.
Lemma consume_in st k s x : NoDup (map p_corr (s_pending s)) -> In x (s_pending s) -> p_stage x = st -> p_corr x = k ->
  consume st k s = Some (x, with_pending (but k (s_pending s)) s).
Proof.
  intros N I S K. unfold consume. destruct (find (is st k) (s_pending s)) as [p|] eqn:E.
  - rewrite (remove_first_but st k _ p N E). apply find_some in E as [E1 E2]. apply is_spec in E2 as [E2 E3]. assert (p = x) by (apply (nodup_inj p_corr (s_pending s)); auto; congruence). now subst.
  - exfalso. apply (find_none _ _ E) in I. assert (is st k x = true) by (apply is_spec; auto). congruence.
Qed.

Lemma find_forward_some id s f : find_forward id s = Some f -> In f (s_forwards s) /\ f_id f = id.
Proof. unfold find_forward. intro H. apply find_some in H as [A B]. apply Z.eqb_eq in B. auto. Qed.
Lemma find_forward_in id s : In id (map fst (statics s)) -> exists f, find_forward id s = Some f /\ In f (s_forwards s) /\ f_id f = id.
Proof.
  intro I. rewrite statics_ids in I. destruct (find_forward id s) as [f|] eqn:E.
  - exists f. split; auto. now apply find_forward_some.
  - exfalso. apply in_map_iff in I as [f [F I]]. unfold find_forward in E. apply (find_none _ _ E) in I. cbn in I. rewrite F, Z.eqb_refl in I. discriminate.
Qed.
Lemma find_forward_static C s st id a : Inv C s st -> In (id, a) (statics s) -> exists f, find_forward id s = Some f /\ In f (s_forwards s) /\ static f = (id, a).
Proof.
  intros H I. destruct (find_forward_in id s) as (f & F & J & E); [now apply (in_map fst) in I|]. exists f. split; [|split]; auto.
  assert (static f = (id, a)); auto. apply (nodup_inj fst (statics s)); auto; [|now apply in_map]. rewrite statics_ids. now apply (inv_nodup_ids C s st).
Qed.

Lemma set_forward_static f l : NoDup (map f_id l) -> In (static f) (map static l) -> map static (set_forward f l) = map static l.
Proof.
  induction l as [|x l IH]; cbn [map set_forward]; auto. intros N I. inversion N as [|? ? X Y]; subst. destruct (f_id x =? f_id f) eqn:E.
  - apply Z.eqb_eq in E. destruct I as [I|I]; [cbn; now rewrite <- I|]. exfalso. apply X. rewrite E. apply (in_map fst) in I. rewrite map_map in I. exact I.
  - apply Z.eqb_neq in E. destruct I as [I|I]; [exfalso; apply E; unfold static in I; now injection I|]. cbn. f_equal. auto.
Qed.
Lemma put_forward_static C s st f : Inv C s st -> In (static f) (statics s) -> statics (put_forward f s) = statics s.
Proof. intros H I. unfold statics, put_forward. cbn. apply set_forward_static; auto. now apply (inv_nodup_ids C s st). Qed.
Lemma inv_put C s st f : Inv C s st -> In (static f) (statics s) -> Inv C (put_forward f s) st.
Proof. intros H I. apply (inv_static C s); auto. now apply (put_forward_static C s st). Qed.

(* ---- the small steps ---- *)
Definition flow_ok (C : conf -> Prop) (s : state) (st : Z -> list (input * effect)) (p : pend) : Prop :=
  exists c x, C c /\ In (p_fwd p, conf_sta c) (statics s) /\ story c (p_fwd p) (p_corr p) (p_corr p + 1) (st (p_corr p))
         /\ last_of (st (p_corr p)) = Some x /\ matches p x /\ p_trid p = p_corr p + 1.
Lemma pend_flow C s st p : p_stage p <> LookQ -> pend_ok C s st p -> flow_ok C s st p.
Proof. unfold pend_ok. intros N H. destruct (p_stage p) eqn:E; try exact H. congruence. Qed.
Lemma pend_flow_ok C s st p : p_stage p <> LookQ -> flow_ok C s st p -> pend_ok C s st p.
Proof. unfold pend_ok. intros N H. destruct (p_stage p) eqn:E; try exact H. congruence. Qed.
Lemma story_about c f k t l : story c f k t l -> forall x, In x l -> about k (snd x) = true.
Proof.
  intro H. induction H as [|l i e H IH F]; [intros x []|]. intros x I. apply in_app_or in I as [I|[<-|[]]]; auto. cbn.
  unfold follows in F. destruct (last_of l) as [[j b]|]; [destruct b|]; destruct e; try contradiction; cbn; apply Z.eqb_eq; tauto.
Qed.
Lemma inv_advance C s st i x x' e : Inv C s st -> In x (s_pending s) -> p_stage x <> LookQ -> p_stage x' <> LookQ ->
  p_corr x' = p_corr x -> p_fwd x' = p_fwd x -> p_trid x' = p_trid x ->
  (forall c, C c -> In (p_fwd x, conf_sta c) (statics s) -> follows c (p_fwd x) (p_corr x) (p_corr x + 1) (last_of (st (p_corr x))) i e) ->
  (about (p_corr x) e = true) -> matches x' (i, e) ->
  Inv C (push x' (with_pending (but (p_corr x) (s_pending s)) s)) (ext i [e] st).
Proof.
  intros H I NQ NQ' K F T FO AB M. destruct H as [A B Fr P Tt S D].
  assert (O : forall k, k <> p_corr x -> ext i [e] st k = st k).
  { intros k Nk. unfold ext. cbn. assert (about k e = false) as ->; [|apply app_nil_r]. destruct (about k e) eqn:E; auto. exfalso. apply Nk.
    destruct e; cbn in *; try discriminate; apply Z.eqb_eq in E, AB; congruence. }
  assert (X : ext i [e] st (p_corr x) = st (p_corr x) ++ [(i, e)]) by (unfold ext; cbn; now rewrite AB).
  destruct (pend_flow C s st x NQ (P x I)) as (c & y & Cc & St & Sy & L & Mx & Tr).
  split; cbn [s_pending push with_pending s_next s_forwards]; auto.
  - rewrite map_app. apply nodup_app; [now apply nodup_map_filter|cbn; repeat constructor; tauto|]. cbn. intros z Z [<-|[]]. apply in_map_iff in Z as [q [Q Z]]. apply in_but in Z as [_ Z]. congruence.
  - intros p Ip. apply in_app_or in Ip as [Ip|[<-|[]]]; [apply in_but in Ip as [Ip _]; auto|rewrite K; auto].
  - intros k Lk. rewrite O; auto. specialize (B x I). lia.
  - intros p Ip. apply in_app_or in Ip as [Ip|[<-|[]]].
    + apply in_but in Ip as [Ip Np]. apply (pend_ok_eq C s _ st); auto. symmetry. now apply O.
    + apply pend_flow_ok; auto. exists c, (i, e). rewrite K, F, T, X, last_of_snoc. split; [auto|]. split; [auto|]. split; [apply story_more; auto|auto].
  - intro k. destruct (Z.eq_dec k (p_corr x)) as [->|Nk]; [|rewrite O; auto]. right. exists c, (p_fwd x). split; [auto|split; [auto|]]. rewrite X. apply story_more; auto.
Qed.
Lemma inv_add_look C s st id : Inv C s st -> In id (map fst (statics s)) ->
  Inv C (State (s_run s) (s_forwards s) (s_pending s ++ [Pend LookQ id (s_next s) 0 0]) (s_next s + 2)) st.
Proof.
  intros [A B F P T S D] I. split; cbn [s_pending s_next s_forwards]; auto.
  - rewrite map_app. apply nodup_app; auto; [cbn; repeat constructor; tauto|]. cbn. intros z Z [<-|[]]. apply in_map_iff in Z as [q [Q Z]]. apply B in Z. lia.
  - intros p J. apply in_app_or in J as [J|[<-|[]]]; [apply B in J; lia|cbn; lia].
  - intros k L. apply F. lia.
  - intros p J. apply in_app_or in J as [J|[<-|[]]]; [apply (pend_ok_eq C s _ st); auto|]. cbn. split; [apply F; lia|auto].
Qed.
Lemma inv_add_deq C s st i f p q name : Inv C s st -> In (static f) (statics s) -> f_enabled f = true -> name = r_name (f_source f) ->
  Inv C (State (s_run s) (s_forwards s) (s_pending s ++ [Pend Deq (f_id f) (s_next s) (s_next s + 1) 0]) (s_next s + 2)) (ext i [Dequeue (f_id f) p (s_next s) (s_next s + 1) q name] st).
Proof.
  intros [A B F P T S D] I En Nm. pose proof (S _ I) as (c & Cc & Ok & Ec). unfold static in Ec, I. cbn in Ec.
  assert (O : forall k, k <> s_next s -> ext i [Dequeue (f_id f) p (s_next s) (s_next s + 1) q name] st k = st k).
  { intros k N. unfold ext. cbn. assert (s_next s =? k = false) as -> by (apply Z.eqb_neq; congruence). apply app_nil_r. }
  assert (X : ext i [Dequeue (f_id f) p (s_next s) (s_next s + 1) q name] st (s_next s) = [] ++ [(i, Dequeue (f_id f) p (s_next s) (s_next s + 1) q name)]).
  { unfold ext. cbn. rewrite Z.eqb_refl, (F (s_next s)) by lia. reflexivity. }
  assert (Sy : story c (f_id f) (s_next s) (s_next s + 1) ([] ++ [(i, Dequeue (f_id f) p (s_next s) (s_next s + 1) q name)])).
  { apply story_more; [constructor|]. unfold conf_sta in Ec. injection Ec as E1 E2 E3 E4 E5. cbn. repeat split; congruence. }
  split; cbn [s_pending s_next s_forwards]; auto.
  - rewrite map_app. apply nodup_app; auto; [cbn; repeat constructor; tauto|]. cbn. intros z Z [<-|[]]. apply in_map_iff in Z as [y [Q Z]]. apply B in Z. lia.
  - intros y J. apply in_app_or in J as [J|[<-|[]]]; [apply B in J; lia|cbn; lia].
  - intros k L. rewrite O by lia. apply F. lia.
  - intros y J. apply in_app_or in J as [J|[<-|[]]].
    + apply (pend_ok_eq C s _ st); auto. symmetry. apply O. apply B in J. lia.
    + cbn [pend_ok p_stage p_corr p_fwd p_trid]. eexists. eexists. rewrite X, last_of_snoc. split; [exact Cc|]. split; [unfold statics in *; cbn [s_forwards]; now rewrite <- Ec|]. repeat (split; [solve [auto]|]). split; [exact Logic.I|auto].
  - intro k. destruct (Z.eq_dec k (s_next s)) as [->|N].
    + right. exists c, (f_id f). split; auto. rewrite X. split; auto. unfold statics in *. cbn [s_forwards]. now rewrite <- Ec.
    + rewrite O; auto.
Qed.

Lemma inv_dequeue_n C i n : forall f s st, Inv C s st -> In (static f) (statics s) -> f_enabled f = true ->
  Inv C (fst (dequeue_n n f s)) (ext i (snd (dequeue_n n f s)) st).
Proof.
  induction n as [|n IH]; intros f s st H I En; cbn [dequeue_n].
  - cbn [fst snd]. apply (inv_eq C _ st); [intro; apply ext_nil|]. now apply inv_put.
  - pose proof (inv_add_deq C s st i f (r_ipc (f_source f)) (r_id (f_source f)) _ H I En eq_refl) as H1.
    specialize (IH (with_running (f_running f + 1) f) _ _ H1 I En).
    match goal with |- context [dequeue_n n ?a ?b] => destruct (dequeue_n n a b) as [s2 ev] end. cbn [fst snd] in *.
    apply (inv_eq C _ (ext i ev (ext i [Dequeue (f_id f) (r_ipc (f_source f)) (s_next s) (s_next s + 1) (r_id (f_source f)) (r_name (f_source f))] st))); auto.
    intro k. rewrite <- ext_app. reflexivity.
Qed.
Lemma inv_dequeue_request C i f s st : Inv C s st -> In (static f) (statics s) -> Inv C (fst (dequeue_request f s)) (ext i (snd (dequeue_request f s)) st).
Proof.
  intros H I. unfold dequeue_request. destruct (f_enabled f) eqn:E; [now apply inv_dequeue_n|]. cbn [fst snd]. apply (inv_eq C _ st); [intro; apply ext_nil|]. now apply inv_put.
Qed.
Lemma inv_ask C id names : forall s st, Inv C s st -> In id (map fst (statics s)) ->
  Inv C (fst (ask_queues id names s)) st /\ flowless (snd (ask_queues id names s)) /\ statics (fst (ask_queues id names s)) = statics s.
Proof.
  induction names as [|n names IH]; intros s st H I; cbn [ask_queues].
  - split; [auto|split; [apply flowless_nil|auto]].
  - pose proof (inv_add_look C s st id H I) as H1. specialize (IH _ _ H1 I).
    match goal with |- context [ask_queues id names ?b] => destruct (ask_queues id names b) as [s2 ev] end. cbn [fst snd] in *. destruct IH as (A & B & D). split; [auto|split; auto].
Qed.
Lemma static_put_in C s st f : Inv C s st -> In (static f) (statics s) -> In (static f) (statics (put_forward f s)).
Proof. intros H I. now rewrite (put_forward_static C s st). Qed.
Lemma inv_next C i f s st : Inv C s st -> In (static f) (statics s) -> Inv C (fst (next f s)) (ext i (snd (next f s)) st).
Proof.
  intros H I. unfold next. destruct (valid_queues f); [now apply inv_dequeue_request|]. destruct (existsb _ _).
  - cbn [fst snd]. apply (inv_eq C _ st); [intro; apply ext_nil|]. now apply inv_put.
  - unfold lookup_queues. destruct (inv_ask C (f_id f) (queues_of f) (put_forward f s) st) as (A & B & D); [now apply inv_put|rewrite (put_forward_static C s st) by auto; now apply (in_map fst) in I|].
    apply (inv_eq C _ st); auto. intro k. now apply ext_flowless.
Qed.
Lemma static_decrement f : static (decrement f) = static f.
Proof. unfold decrement. cbv zeta. destruct (absent _); unfold static; cbn; auto. destruct (f_dest f) as [[d y]|]; reflexivity. Qed.
Lemma static_invalidate f : static (invalidate_queues f) = static f.
Proof. unfold invalidate_queues, static. cbn. destruct (f_dest f) as [[d y]|]; reflexivity. Qed.
Lemma static_assign name q p r f : static (fst (assign name q p r f)) = static f.
Proof.
  unfold assign. cbv zeta. destruct (r_name (f_source f) =? name) eqn:E.
  - apply Z.eqb_eq in E. destruct r; unfold static; cbn; destruct (f_dest f) as [[d y]|]; cbn; rewrite ?E; auto; destruct (r_name d =? name) eqn:D; cbn; auto; apply Z.eqb_eq in D; now rewrite D.
  - unfold static; cbn; destruct (f_dest f) as [[d y]|]; cbn; auto; destruct (r_name d =? name) eqn:D; cbn; auto; apply Z.eqb_eq in D; now rewrite D.
Qed.
