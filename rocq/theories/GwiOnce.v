(* A request is passed on at most once. *)
From Coq Require Import ZArith List Bool Lia.
From Verif Require Import GwiModel GwiSpec GwiProofs GwiInv GwiFwd.
Import ListNotations.
Local Open Scope Z_scope.

Lemma count_unique {A} (f : A -> bool) l x y : (count f l <= 1)%nat -> In x l -> In y l -> f x = true -> f y = true -> x = y.
Proof.
  induction l as [|a l IH]; cbn; [tauto|]. intros C [<- | I] [<- | J] X Y; auto.
  - rewrite X in C. pose proof (count_in f l y J Y). lia.
  - rewrite Y in C. pose proof (count_in f l x I X). lia.
  - apply IH; auto. lia.
Qed.
Lemma unique_snoc h i ev : unique (h ++ [(i, ev)]) -> unique h.
Proof. intros U k. specialize (U k). rewrite inputs_snoc, count_app in U. lia. Qed.
Lemma once_snoc h i ev : once (h ++ [(i, ev)]) -> once h.
Proof. intros U k. specialize (U k). rewrite inputs_snoc, !count_app in U. lia. Qed.
Lemma honest_snoc h i ev : honest (h ++ [(i, ev)]) -> honest h.
Proof. intros H h1 c ok m e h2 E. apply (H h1 c ok m e (h2 ++ [(i, ev)])). rewrite E, <- app_assoc. reflexivity. Qed.
Lemma honest_last h c ok m ev : honest (h ++ [(Internal c ok m, ev)]) -> is_answer m = true -> exists e, In e (effects h) /\ answer_of m e.
Proof. intros H. apply (H h c ok m ev []). reflexivity. Qed.
Lemma asked_unique h c c' q q' : unique h -> asked c q h -> asked c' q' h -> q_corr q = q_corr q' -> c = c' /\ q = q'.
Proof.
  intros U [o I] [o' J] E. assert (X: External c o (XRequest q) = External c' o' (XRequest q')).
  { apply (count_unique (opens (q_corr q)) (inputs h)); auto; cbn; [apply Z.eqb_refl|]. apply Z.eqb_eq. auto. }
  now injection X.
Qed.
Lemma asked_opens h c q : asked c q h -> (1 <= count (opens (q_corr q)) (inputs h))%nat.
Proof. intros [o I]. apply (count_in _ _ _ I). cbn. apply Z.eqb_refl. Qed.
Lemma fresh_request h c on q ev : unique (h ++ [(External c on (XRequest q), ev)]) -> count (opens (q_corr q)) (inputs h) = 0%nat.
Proof. intros U. specialize (U (q_corr q)). rewrite inputs_snoc, count_app in U. cbn in U. rewrite Z.eqb_refl in U. lia. Qed.

(* tasks with a correlation *)
Definition at_corr (k : corr) (t : task) : bool := t_corr t =? k.
Lemma without_count k k' l : (count (at_corr k) (without_task k' l) <= count (at_corr k) l)%nat.
Proof. induction l as [|a l IH]; cbn; auto. destruct (t_corr a =? k'); cbn; lia. Qed.
Lemma without_none k l : (count (at_corr k) l <= 1)%nat -> forall t, In t (without_task k l) -> t_corr t <> k.
Proof.
  induction l as [|a l IH]; cbn; [tauto|]. unfold at_corr at 1. destruct (Z.eqb_spec (t_corr a) k) as [E|E]; cbn; intros C t I.
  - intro X. assert (1 <= count (at_corr k) l)%nat by (apply (count_in _ _ _ I); now apply Z.eqb_eq). lia.
  - destruct I as [<- | I]; auto.
Qed.
Lemma without_keeps k t l : In t l -> t_corr t <> k -> In t (without_task k l).
Proof. induction l as [|a l IH]; cbn; auto. intros [<- | I] N; destruct (Z.eqb_spec (t_corr a) k); cbn; auto; contradiction. Qed.
Lemma set_keeps k b t l : In t l -> t_corr t <> k -> In t (set_task k b l).
Proof. induction l as [|a l IH]; cbn; auto. intros [<- | I] N; destruct (Z.eqb_spec (t_corr a) k); cbn; auto; contradiction. Qed.
Lemma set_in k b l t : find (fun t => t_corr t =? k) l = Some t -> In (Task (k_sock t) b) (set_task k b l).
Proof. induction l as [|a l IH]; cbn; [discriminate|]. destruct (t_corr a =? k); [intro H; injection H as ->; cbn; auto|cbn; auto]. Qed.
Lemma set_count k k' b l : (forall f, t_corr (Task f b) = k') -> count (at_corr k) (set_task k' b l) = count (at_corr k) l.
Proof.
  intro B. induction l as [|a l IH]; cbn; auto. destruct (Z.eqb_spec (t_corr a) k') as [E|]; cbn; [|lia]. unfold at_corr. now rewrite B, E.
Qed.
Lemma filter_count {A} (f p : A -> bool) l : (count f (filter p l) <= count f l)%nat.
Proof. induction l as [|a l IH]; cbn; auto. destruct (p a); cbn; lia. Qed.
Lemma first_unique k s t : (count (at_corr k) (s_tasks s) <= 1)%nat -> In t (s_tasks s) -> t_corr t = k -> first_task k s = Some t.
Proof.
  intros C I E. destruct (first_task k s) as [t'|] eqn:F.
  - apply first_some in F as [J E']. f_equal. apply (count_unique (at_corr k) (s_tasks s)); auto; apply Z.eqb_eq; auto.
  - unfold first_task in F. pose proof (find_none _ _ F t I) as X. cbn in X. apply Z.eqb_neq in X. contradiction.
Qed.
Lemma step_tasks s i s' ev k : NoDup (map c_sock (s_conns s)) -> stepd s i s' ev -> (count (at_corr k) (s_tasks s') <= count (at_corr k) (s_tasks s) + count (opens k) [i])%nat.
Proof.
  intros ND E.
  assert (PT: forall k' b f0 b0 l, find (fun t => t_corr t =? k') l = Some (Task f0 b0) -> (forall f, t_corr (Task f b) = t_corr (Task f0 b0)) -> (count (at_corr k) (set_task k' b l) <= count (at_corr k) l)%nat).
  { intros k' b f0 b0 l F B. rewrite set_count; auto. intro f. rewrite B. apply find_some in F as [_ F]. now apply Z.eqb_eq. }
  destruct E as [f c soft|n on q s' ev J E|n on r k1 t d s' ev J E|i Q|n on k1 d f q o name p J F K|n on k1 f q o name p J F K|n on k1 d J|n on J DC|n ok k1 a f q o fnd J F A|n ok k1 name p f q o fnd ev J F EV
    |n ok k1 p f q fnd J F|n ok k1 p f q fnd J F|n ok k1 t f q o fnd ev J F EV|n ok k1 t f q w J F|n ok k1 t f q w p J F|n k1 code d m q o fnd J J2 F K|n r k1 t code m k0 o J J2 F|n m w J F X|n k1 d J
    |f q|g|i L s' ev CL C D|c k1 d L s1 ev CL C D]; try (cbn; lia).
  - destruct (request_done _ _ _ _ _ _ ND J E) as (q' & w & l & e & T & -> & ->). cbn. rewrite count_app. cbn.
    assert (X: t_corr (Task (c_sock n) (body_of q q' w)) = q_corr q) by (unfold body_of, t_corr; cbn; destruct (is_service q); destruct T; reflexivity). unfold at_corr at 2. rewrite X. lia.
  - unfold resource_step in E. destruct (cached _ _) as [x|]; injection E as <- <-; cbn; rewrite count_app; cbn; unfold at_corr at 2; cbn; lia.
  - pose proof (without_count k k1 (s_tasks s)). cbn. lia.
  - pose proof (PT k1 (Service q o (Some (name, p))) f _ _ F (fun _ => eq_refl)). cbn. lia.
  - pose proof (PT k1 (Queue q true (Some p)) f _ _ F (fun _ => eq_refl)). cbn. lia.
  - pose proof (without_count k k1 (s_tasks s)). cbn. lia.
  - pose proof (PT k1 (Service (with_trid (Some t) q) o fnd) f _ _ F (fun _ => eq_refl)). cbn. rewrite cache_add_tasks. lia.
  - pose proof (PT k1 (Queue (with_trid (Some t) q) false None) f _ _ F (fun _ => eq_refl)). cbn. rewrite cache_add_tasks. lia.
  - pose proof (without_count k k1 (s_tasks s)). cbn. rewrite cache_add_tasks. lia.
  - pose proof (without_count k k1 (s_tasks s)). cbn. lia.
  - pose proof (without_count k k1 (s_tasks s)). cbn. lia.
  - cbn. pose proof (filter_count (at_corr k) (fun t => negb (t_corr t =? k1)) (s_tasks s)). lia.
  - rewrite (cl_tasks _ _ _ _ C). pose proof (filter_count (at_corr k) (fun t => negb (hit L (k_sock t))) (s_tasks s)). lia.
  - cbn. rewrite (cl_tasks _ _ _ _ C). pose proof (filter_count (at_corr k) (fun t => negb (t_corr t =? k1)) (filter (fun t => negb (hit L (k_sock t))) (s_tasks s))).
    pose proof (filter_count (at_corr k) (fun t => negb (hit L (k_sock t))) (s_tasks s)). lia.
Qed.
Lemma tasks_le s h k : reach s h -> (count (at_corr k) (s_tasks s) <= count (opens k) (inputs h))%nat.
Proof.
  induction 1 as [|s h i s' ev R IH P E]; [cbn; lia|]. destruct (stepd_of _ _ _ _ _ R P E) as [IV SD]. pose proof (step_tasks _ _ _ _ k (i_sock _ _ IV) SD). rewrite inputs_snoc, count_app. lia.
Qed.
Lemma tasks_one s h k : reach s h -> unique h -> (count (at_corr k) (s_tasks s) <= 1)%nat.
Proof. intros R U. pose proof (tasks_le s h k R). specialize (U k). lia. Qed.

(* what is asked for a request *)
Definition not_asked (e : effect) : Prop := match e with Branch _ _ _ | Lookup _ _ _ _ _ | LookupQueue _ _ _ _ => False | _ => True end.
Lemma partner_not_asked f m s e : In e (to_partner f m s) -> not_asked e.
Proof. unfold to_partner. destruct (by_sock f s); cbn; [intros [<- | []]; exact I|tauto]. Qed.
Lemma queue_not_asked f p q s e : In e (queue_request f p q s) -> not_asked e.
Proof. unfold queue_request. destruct p; [cbn; intros [<- | []]; exact I|apply partner_not_asked]. Qed.
Definition no_request (i : input) : Prop := match i with External _ _ (XRequest _) => False | _ => True end.
Lemma step_asked s i s' ev : NoDup (map c_sock (s_conns s)) -> stepd s i s' ev -> (no_request i /\ forall e, In e ev -> not_asked e) \/
  exists n on q q' w l e, In n (s_conns s) /\ i = External (c_ipc n) on (XRequest q) /\ transacts s (c_sock n) q q' w l e /\ s' = State (s_conns s) (s_tasks s ++ [Task (c_sock n) (body_of q q' w)]) l (s_leaving s) (s_down s) /\
    ev = asks_lookup on (c_ipc n) q :: e.
Proof.
  intros ND E.
  destruct E as [f c soft|n on q s' ev J E|n on r k1 t d s' ev J E|i Q|n on k1 d f q o name p J F K|n on k1 f q o name p J F K|n on k1 d J|n on J DC|n ok k1 a f q o fnd J F A|n ok k1 name p f q o fnd ev J F EV
    |n ok k1 p f q fnd J F|n ok k1 p f q fnd J F|n ok k1 t f q o fnd ev J F EV|n ok k1 t f q w J F|n ok k1 t f q w p J F|n k1 code d m q o fnd J J2 F K|n r k1 t code m k0 o J J2 F|n m w J F X|n k1 d J
    |f q|g|i L s' ev CL C D|c k1 d L s1 ev CL C D]; try (left; split; [exact I|]; cbn; intros e H; (destruct H as [<- | []]; exact I) || tauto).
  - right. destruct (request_done _ _ _ _ _ _ ND J E) as (q' & w & l & e & T & A & B). exists n, on, q, q', w, l, e. auto.
  - left; split; [exact I|]. unfold resource_step in E. destruct (cached _ _) as [x|]; injection E as <- <-; [cbn; intros e [<- | []]; exact I|intros e; apply partner_not_asked].
  - left. split; [|cbn; tauto]. destruct i as [|c on m| | | | | | |]; cbn in *; auto. now destruct m.
  - left; split; [exact I|]. intro e. apply partner_not_asked.
  - left; split; [exact I|]. subst ev. unfold service_request. intros e X. destruct o; [destruct (trid_eqb _ _)|]; cbn in X; (destruct X as [<- | []]; exact I) || destruct X.
  - left; split; [exact I|]. intro e. apply queue_not_asked.
  - left; split; [exact I|]. subst ev. unfold service_request. intros e X. destruct fnd; cbn in X; (destruct X as [<- | []]; exact I) || destruct X.
  - left; split; [exact I|]. intro e. apply queue_not_asked.
  - left; split; [exact I|]. unfold undelivered. intros e H. destruct (q_kind q); apply partner_not_asked in H; auto.
  - left; split; [destruct i as [|c on m| | | | | | |]; cbn in *; auto; now destruct m|]. intros e H. pose proof (cl_ev _ _ _ _ C e H) as X. destruct e; cbn in *; auto.
  - left; split; [exact I|]. intros e H. pose proof (cl_ev _ _ _ _ C e H) as X. destruct e; cbn in *; auto.
Qed.
Lemma branch_asked s h c k g : reach s h -> In (Branch c k g) (effects h) -> exists q, asked c q h /\ q_corr q = k /\ gtrid (q_trid q) = Some g.
Proof.
  induction 1 as [|s h i s' ev R IH P E]; [cbn; tauto|]. destruct (stepd_of _ _ _ _ _ R P E) as [IV SD]. rewrite effects_snoc. intro J. apply in_app_or in J as [J|J].
  - destruct (IH J) as (q & A & B). exists q. split; auto. now apply asked_mono.
  - destruct (step_asked _ _ _ _ (i_sock _ _ IV) SD) as [[_ X]|(n & on & q & q' & w & l & e & I & -> & T & -> & ->)]; [now apply X in J|].
    destruct J as [J|J]; [unfold asks_lookup in J; destruct (q_kind q); [| |destruct on|destruct on]; discriminate|]. destruct T as [T|g0 b x T G|g0 b T G]; cbn in J; try tauto. destruct J as [J|[]]. injection J as <- <- <-.
    exists q. rewrite (handle_conn _ _ (i_sock _ _ IV) I). split; [exists on; rewrite inputs_snoc; apply in_or_app; cbn; auto|]. split; auto. now rewrite T.
Qed.
Lemma lookup_asked s h e k : reach s h -> In e (effects h) -> (forall a, answer_of (ILookup k a) e) \/ (forall a, answer_of (IQueueLookup k a) e) -> exists c q, asked c q h /\ q_corr q = k.
Proof.
  induction 1 as [|s h i s' ev R IH P E]; [cbn; tauto|]. destruct (stepd_of _ _ _ _ _ R P E) as [IV SD]. rewrite effects_snoc. intros J AN. apply in_app_or in J as [J|J].
  - destruct (IH J AN) as (c & q & A & B). exists c, q. split; auto. now apply asked_mono.
  - destruct (step_asked _ _ _ _ (i_sock _ _ IV) SD) as [[_ X]|(n & on & q & q' & w & l & e1 & I & -> & T & -> & ->)].
    + apply X in J. exfalso. destruct AN as [AN|AN]; [specialize (AN Absent)|specialize (AN None)]; destruct e; cbn in *; auto.
    + exists (c_ipc n), q. split; [exists on; rewrite inputs_snoc; apply in_or_app; cbn; auto|]. destruct J as [<- | J].
      * unfold asks_lookup in AN. destruct AN as [AN|AN]; [specialize (AN Absent)|specialize (AN None)]; destruct (q_kind q); [| |destruct on|destruct on| | |destruct on|destruct on]; cbn in AN; tauto || auto.
      * exfalso. destruct T; cbn in J; try tauto. destruct J as [<- | []]. destruct AN as [AN|AN]; [exact (AN Absent)|exact (AN None)].
Qed.

(* ---- one at most ---- *)
Definition resolved (k : corr) (h : history) : Prop := (1 <= count (is_branch k) (inputs h))%nat \/ no_branch k h.
Definition F (k : corr) (h : history) : nat := count (forwards k) (effects h).
Definition L (k : corr) (h : history) : nat := count (is_lookup k) (inputs h).
Definition ok_task (k : corr) (b : body) (h : history) : Prop :=
  match b with
  | Service q o fnd => (fnd <> None -> (1 <= L k h)%nat) /\ (o = None \/ trid_eqb o (q_trid q) = false -> resolved k h)
  | Queue q w fnd => F k h = 0%nat /\ (fnd <> None -> (1 <= L k h)%nat) /\ (w = false -> resolved k h)
  | Rm _ _ _ => True
  end.
Record oi (k : corr) (s : state) (h : history) : Prop := {
  o_le : (F k h <= 1)%nat;
  o_fwd : (1 <= F k h)%nat -> (1 <= L k h)%nat /\ resolved k h;
  o_task : forall t, In t (s_tasks s) -> t_corr t = k -> ok_task k (k_body t) h
}.
Lemma F_snoc k h i ev : F k (h ++ [(i, ev)]) = (F k h + count (forwards k) ev)%nat.
Proof. unfold F. now rewrite effects_snoc, count_app. Qed.
Lemma L_snoc k h i ev : L k (h ++ [(i, ev)]) = (L k h + if is_lookup k i then 1 else 0)%nat.
Proof. unfold L. rewrite inputs_snoc, count_app. cbn. lia. Qed.
Lemma resolved_mono k h i ev : resolved k h -> (forall c g, ~ In (Branch c k g) ev) -> resolved k (h ++ [(i, ev)]).
Proof.
  intros [H|H] N; [left; rewrite inputs_snoc, count_app; lia|right]. intros c g J. rewrite effects_snoc in J. apply in_app_or in J as [J|J]; [now apply H in J|now apply N in J].
Qed.
Lemma ok_task_mono k b h i ev : ok_task k b h -> count (forwards k) ev = 0%nat -> (forall c g, ~ In (Branch c k g) ev) -> ok_task k b (h ++ [(i, ev)]).
Proof.
  intros H C N. destruct b as [q o fnd|q w fnd|r k0 o]; cbn in *; auto; rewrite L_snoc, ?F_snoc, ?C.
  - destruct H as [A B]. split; [intro X; specialize (A X); lia|]. intro X. now apply resolved_mono; auto.
  - destruct H as [A [B D]]. split; [lia|]. split; [intro X; specialize (B X); lia|]. intro X. now apply resolved_mono; auto.
Qed.
Lemma oi_step k s h i ev s' : oi k s h -> count (forwards k) ev = 0%nat -> (forall c g, ~ In (Branch c k g) ev) ->
  (forall t, In t (s_tasks s') -> t_corr t = k -> In t (s_tasks s) \/ ok_task k (k_body t) (h ++ [(i, ev)])) -> oi k s' (h ++ [(i, ev)]).
Proof.
  intros [A B C] N1 N2 T. constructor; rewrite ?F_snoc, ?N1, ?L_snoc; [lia| |].
  - intro X. destruct B as [B1 B2]; [lia|]. split; [lia|]. now apply resolved_mono.
  - intros t J K. destruct (T t J K) as [X|X]; auto. apply ok_task_mono; auto.
Qed.
Lemma not_fwd_count k ev : (forall e, In e ev -> not_fwd e) -> count (forwards k) ev = 0%nat.
Proof. intro H. apply count_zero. intros e J. specialize (H e J). destruct e; cbn in *; auto. destruct H. Qed.
Lemma not_asked_branch k ev : (forall e, In e ev -> not_asked e) -> forall c g, ~ In (Branch c k g) ev.
Proof. intros H c g J. exact (H _ J). Qed.
Lemma fwd_opens s h k : reach s h -> (1 <= F k h)%nat -> (1 <= count (opens k) (inputs h))%nat.
Proof.
  intros R H. induction R as [|s h i s' ev R IH P E]; [cbn in H; lia|]. rewrite F_snoc in H. rewrite inputs_snoc, count_app. destruct (F k h) eqn:X; [|specialize (IH ltac:(lia)); lia].
  destruct (stepd_of _ _ _ _ _ R P E) as [IV SD]. destruct (step_fwd _ _ _ _ (i_sock _ _ IV) SD) as [Y|(k1 & t & p & q' & FC & ->)]; [rewrite (not_fwd_count k ev Y) in H; lia|].
  destruct (fwd_cause h i [ToProcess p (handle (k_sock t) s) q'] p (handle (k_sock t) s) q') as [_ (q & A & (B1 & B2 & B3) & _)]; [exists s'; econstructor; eauto|cbn; auto|].
  cbn in H. destruct (Z.eqb_spec (q_corr q') k) as [<-|]; [|lia]. pose proof (asked_opens _ _ _ A). rewrite <- B2 in H0. lia.
Qed.
Lemma task_opens s h t : reach s h -> In t (s_tasks s) -> (1 <= count (opens (t_corr t)) (inputs h))%nat.
Proof. intros R J. pose proof (tasks_le s h (t_corr t) R). pose proof (count_in (at_corr (t_corr t)) (s_tasks s) t J (Z.eqb_refl _)). lia. Qed.
Lemma none_branch s h k : reach s h -> count (opens k) (inputs h) = 0%nat -> no_branch k h.
Proof. intros R Z0 c g J. destruct (branch_asked _ _ _ _ _ R J) as (q & A & B & _). pose proof (asked_opens _ _ _ A). rewrite B in H. lia. Qed.
Lemma honest_branch s h c ok k t ev : reach s h -> honest (h ++ [(Internal c ok (IBranch k t), ev)]) -> exists c', In (Branch c' k (fst t)) (effects h).
Proof. intros R H. destruct (honest_last _ _ _ _ _ H eq_refl) as [e [A B]]. destruct e; cbn in B; try tauto. destruct B as [-> ->]. eauto. Qed.

Lemma reach_oi s h k : reach s h -> unique h -> once h -> honest h -> oi k s h.
Proof.
  induction 1 as [|s h i s' ev R IH P E]; intros U O HO.
  { constructor; unfold F, L; cbn; lia || tauto. }
  pose proof (unique_snoc _ _ _ U) as U0. specialize (IH U0 (once_snoc _ _ _ O) (honest_snoc _ _ _ HO)). destruct (stepd_of _ _ _ _ _ R P E) as [IV SD].
  pose proof (tasks_one s h k R U0) as ONE. specialize (O k). rewrite inputs_snoc, !count_app in O.
  destruct (step_asked _ _ _ _ (i_sock _ _ IV) SD) as [[NR NA]|(n & on & q & q' & w & l & e & I & -> & T & -> & ->)].
  2: { destruct (Z.eq_dec (q_corr q) k) as [K|K].
    - subst k. pose proof (fresh_request _ _ _ _ _ U) as Z0.
      assert (F0: F (q_corr q) h = 0%nat) by (destruct (F (q_corr q) h) eqn:X; auto; pose proof (fwd_opens s h (q_corr q) R); lia).
      set (ev := asks_lookup on (c_ipc n) q :: e) in *.
      assert (FE: count (forwards (q_corr q)) ev = 0%nat).
      { apply not_fwd_count. intros x [<- | X]; [unfold asks_lookup; destruct (q_kind q); [exact Logic.I|exact Logic.I| |]; destruct on; exact Logic.I|]. destruct T; cbn in X; try tauto. destruct X as [<- | []]; exact Logic.I. }
      constructor; rewrite ?F_snoc, ?F0, ?FE; try lia.
      intros t J K. cbn in J. apply in_app_or in J as [J|[<- | []]]; [pose proof (task_opens s h t R J); rewrite K in H; lia|]. cbn.
      assert (RS: e = [] -> resolved (q_corr q) (h ++ [(External (c_ipc n) on (XRequest q), ev)])).
      { intros ->. right. intros c g X. rewrite effects_snoc in X. apply in_app_or in X as [X|[X|[]]]; [now apply (none_branch s h _ R Z0) in X|]. unfold asks_lookup in X. destruct (q_kind q); [| |destruct on|destruct on]; discriminate. }
      unfold body_of. destruct (is_service q); cbn.
      + split; [tauto|]. destruct T as [T|g b x T G|g b T G]; auto. intros [X|X]; [congruence|]. apply trid_neq in X. congruence.
      + rewrite F_snoc, F0, FE. split; auto. split; [tauto|]. destruct T as [T|g b x T G|g b T G]; auto. discriminate.
    - apply (oi_step k s h); auto.
      + apply not_fwd_count. intros x [<- | X]; [unfold asks_lookup; destruct (q_kind q); [exact Logic.I|exact Logic.I| |]; destruct on; exact Logic.I|]. destruct T; cbn in X; try tauto. destruct X as [<- | []]; exact Logic.I.
      + intros c g [X|X]; [unfold asks_lookup in X; destruct (q_kind q); [| |destruct on|destruct on]; discriminate|]. destruct T; cbn in X; try tauto. destruct X as [X|[]]. congruence.
      + intros t J KT. cbn in J. apply in_app_or in J as [J|[<- | []]]; auto. exfalso. apply K. rewrite <- KT. unfold t_corr, body_of; cbn. destruct (is_service q); destruct T; reflexivity. }
  pose proof (not_asked_branch k ev NA) as NB.
  destruct (step_fwd _ _ _ _ (i_sock _ _ IV) SD) as [NF|(k1 & t1 & p1 & q1 & FC & EV)].
  - pose proof (not_fwd_count k ev NF) as CF. pose proof IH as [LE FW TK].
    assert (KEEP: (forall t, In t (s_tasks s') -> In t (s_tasks s)) -> oi k s' (h ++ [(i, ev)])) by (intro X; apply (oi_step k s h); auto).
    assert (PUT: forall k2 t2 b s2, first_task k2 s = Some t2 -> s_tasks s2 = s_tasks s -> s' = put_task k2 b s2 -> (k2 = k -> ok_task k b (h ++ [(i, ev)])) -> t_corr (Task 0 b) = k2 -> oi k s' (h ++ [(i, ev)])).
    { intros k2 t2 b s2 F2 S2 -> OK TC. apply (oi_step k s h); auto. intros t J KT. assert (F2': first_task k2 s2 = Some t2) by (unfold first_task; rewrite S2; exact F2).
      apply (in_put _ _ _ _ _ F2') in J as [J|J]; [rewrite S2 in J; auto|]. subst t. right. cbn. apply OK. rewrite <- TC. exact KT. }
    destruct SD as [f c soft|n on q s' ev J E1|n on r k2 t d s' ev J E1|i Q|n on k2 d f q o name p J F0 K|n on k2 f q o name p J F0 K|n on k2 d J|n on J DC|n ok k2 a f q o fnd J F0 A|n ok k2 name p f q o fnd ev J F0 EV
    |n ok k2 p f q fnd J F0|n ok k2 p f q fnd J F0|n ok k2 t f q o fnd ev J F0 EV|n ok k2 t f q w J F0|n ok k2 t f q w p J F0|n k2 code d m q o fnd J J2 F0 K|n r k2 t code m k0 o J J2 F0|n m w J F0 X|n k2 d J
    |f q|g|i L0 s' ev CL C D|c k2 d L0 s1 ev CL C D]; try (apply KEEP; auto; fail).
    + destruct NR.
    + apply (oi_step k s h); auto. unfold resource_step in E1. destruct (cached _ _) as [x|]; injection E1 as <- <-; cbn; intros t0 J0 K0; apply in_app_or in J0 as [J0|[<- | []]]; auto; right; exact Logic.I.
    + apply KEEP. intros t. apply in_drop.
    + apply (PUT k2 _ _ s F0 eq_refl eq_refl); [|now apply first_some in F0 as [_ F0]]. intros ->. pose proof (first_some _ _ _ F0) as [F1 F2]. pose proof (TK _ F1 F2) as OK. cbn in OK |- *. rewrite L_snoc. cbn. rewrite Z.eqb_refl. split; [lia|].
      intro X. apply resolved_mono; auto. now apply OK.
    + apply (PUT k2 _ _ s F0 eq_refl eq_refl); [|now apply first_some in F0 as [_ F0]]. intros ->. pose proof (first_some _ _ _ F0) as [F1 F2]. pose proof (TK _ F1 F2) as OK. cbn in OK |- *. rewrite F_snoc, L_snoc. cbn. rewrite Z.eqb_refl. split; [lia|]. split; [lia|discriminate].
    + apply KEEP. intros t. apply in_drop.
    + apply (PUT k2 _ _ (cache_add t f s) F0 (cache_add_tasks t f s) eq_refl); [|now apply first_some in F0 as [_ F0]]. intros ->. pose proof (first_some _ _ _ F0) as [F1 F2]. pose proof (TK _ F1 F2) as OK. cbn in OK |- *. rewrite L_snoc. split; [intro X; apply OK in X; lia|].
      intros _. left. rewrite inputs_snoc, count_app. cbn. rewrite Z.eqb_refl. lia.
    + apply (PUT k2 _ _ (cache_add t f s) F0 (cache_add_tasks t f s) eq_refl); [|now apply first_some in F0 as [_ F0]]. intros ->. pose proof (first_some _ _ _ F0) as [F1 F2]. pose proof (TK _ F1 F2) as OK. cbn in OK |- *. rewrite F_snoc. split; [cbn in CF |- *; lia|]. split; [congruence|].
      intros _. left. rewrite inputs_snoc, count_app. cbn. rewrite Z.eqb_refl. lia.
    + apply KEEP. intros t0 J0. apply in_drop in J0. now rewrite cache_add_tasks in J0.
    + apply KEEP. intros t. apply in_drop.
    + apply KEEP. intros t0. apply in_drop.
    + apply KEEP. intros t0. apply in_remove.
    + apply KEEP. intros t0 J0. rewrite (cl_tasks _ _ _ _ C) in J0. now apply filter_In in J0.
    + apply KEEP. intros t0 J0. apply in_remove in J0. rewrite (cl_tasks _ _ _ _ C) in J0. now apply filter_In in J0.
  - pose proof IH as [LE FW TK]. destruct FC as [F0 FC]. pose proof (first_some _ _ _ F0) as [F1 F2]. assert (Q1: q_corr q1 = k1).
    { destruct t1 as [f [q o fnd|q w fnd|r k0 o]]; cbn in FC, F2; unfold t_corr in F2; cbn in F2; [destruct FC as [(? & ? & ? & _ & _ & ->)|(? & ? & ? & ? & _ & _ & ->)]|destruct FC as [(? & ? & _ & _ & ->)|(? & ? & ? & _ & _ & ->)]|destruct FC]; exact F2. }
    assert (CF: count (forwards k) ev = if Z.eq_dec k1 k then 1%nat else 0%nat) by (rewrite EV; cbn; rewrite Q1; destruct (Z.eqb_spec k1 k), (Z.eq_dec k1 k); congruence || auto).
    (* the tasks that are left *)
    assert (TASKS: forall t, In t (s_tasks s') -> In t (s_tasks s) /\ t_corr t <> k1 \/ (exists q o fnd o' fnd', In t (s_tasks s) /\ k_body t = Service q o' fnd' /\ k_body t1 = Service q o fnd) \/
       (exists q o fnd t', k_body t1 = Service q o fnd /\ t_corr t = k1 /\ ((exists x, k_body t = Service q o (Some x) /\ is_lookup k1 i = true) \/ (k_body t = Service (with_trid (Some t') q) o fnd /\ is_branch k1 i = true)))).
    { destruct t1 as [f [q o fnd|q w fnd|r k0 o]]; cbn in FC; [destruct FC as [(c1 & ok & name & -> & X1 & X2)|(c1 & ok & t' & name & -> & X1 & X2)]|destruct FC as [(c1 & ok & -> & X1 & X2)|(c1 & ok & t' & -> & X1 & X2)]|destruct FC].
      all: cbn in E, P; destruct (by_ipc_in _ _ P) as [n B]; rewrite B in E; cbn in E.
      - unfold lookup_reply in E. rewrite F0 in E. injection E as <- _. intros t J. apply (in_put _ _ _ _ _ F0) in J as [J|J].
        + destruct (Z.eq_dec (t_corr t) k1) as [TC|TC]; auto. right; left. assert (t = Task f (Service q o fnd)) by (pose proof (first_unique k1 s t (tasks_one s h k1 R U0) J TC); congruence). subst t. exists q, o, fnd, o, fnd. auto.
        + subst t. right; right. exists q, o, fnd, (0, 0). split; auto. split; [exact F2|]. left. exists (name, p1). cbn. rewrite Z.eqb_refl. auto.
      - unfold branch_reply in E. rewrite F0 in E. injection E as <- _. intros t J. assert (F0': first_task k1 (cache_add t' f s) = Some (Task f (Service q o fnd))) by (unfold first_task; rewrite cache_add_tasks; exact F0).
        apply (in_put _ _ _ _ _ F0') in J as [J|J].
        + rewrite cache_add_tasks in J. destruct (Z.eq_dec (t_corr t) k1) as [TC|TC]; auto. right; left. assert (t = Task f (Service q o fnd)) by (pose proof (first_unique k1 s t (tasks_one s h k1 R U0) J TC); congruence). subst t. exists q, o, fnd, o, fnd. auto.
        + subst t. right; right. exists q, o, fnd, t'. split; auto. split; [exact F2|]. right. cbn. rewrite Z.eqb_refl. auto.
      - unfold queue_lookup_reply in E. rewrite F0, X1 in E. injection E as <- _. intros t J. left. split; [now apply in_drop in J|]. apply (without_none k1 (s_tasks s) (tasks_one s h k1 R U0)). exact J.
      - unfold branch_reply in E. rewrite F0, X1 in E. injection E as <- _. intros t J. cbn in J. rewrite cache_add_tasks in J. left. split; [now apply in_without in J|]. apply (without_none k1 (s_tasks s) (tasks_one s h k1 R U0)). exact J. }
    destruct (Z.eq_dec k1 k) as [->|NK].
    + assert (X: F k h = 0%nat /\ (1 <= L k (h ++ [(i, ev)]))%nat /\ resolved k (h ++ [(i, ev)])).
      { pose proof (TK _ F1 F2) as OK. destruct t1 as [f [q o fnd|q w fnd|r k0 o]]; cbn in FC, OK; [destruct FC as [(c1 & ok & name & -> & X1 & X2)|(c1 & ok & t' & name & -> & X1 & X2)]|destruct FC as [(c1 & ok & -> & X1 & X2)|(c1 & ok & t' & -> & X1 & X2)]|destruct FC]; rewrite L_snoc; cbn; rewrite ?Z.eqb_refl.
        - cbn in O. rewrite Z.eqb_refl in O. split; [destruct (F k h) eqn:FK; auto; destruct FW as [FW _]; [lia|]; unfold L in FW; lia|]. split; [lia|]. apply resolved_mono; auto. now apply OK.
        - cbn in O. rewrite Z.eqb_refl in O. destruct OK as [OK _]. split; [|split; [specialize (OK ltac:(congruence)); lia|left; rewrite inputs_snoc, count_app; cbn; rewrite Z.eqb_refl; lia]].
          destruct (F k h) eqn:FK; auto. destruct FW as [_ [FW|FW]]; [lia|lia|]. destruct (honest_branch _ _ _ _ _ _ _ R HO) as [c' HB]. now apply FW in HB.
        - split; [apply OK|]. split; [lia|]. apply resolved_mono; auto. now apply OK.
        - split; [apply OK|]. destruct OK as [_ [OK _]]. split; [specialize (OK ltac:(congruence)); lia|left; rewrite inputs_snoc, count_app; cbn; rewrite Z.eqb_refl; lia]. }
      destruct X as (X1 & X2 & X3). constructor; rewrite ?F_snoc, ?X1, ?CF; [lia|auto|].
      intros t J KT. destruct (TASKS t J) as [[_ Y]|[(q & o & fnd & o' & fnd' & Y1 & Y2 & Y3)|(q & o & fnd & t' & Y1 & Y2 & [[x [Y3 Y4]]|[Y3 Y4]])]]; [contradiction| | |].
      * rewrite Y2. cbn. auto.
      * rewrite Y3. cbn. auto.
      * rewrite Y3. cbn. auto.
    + apply (oi_step k s h); auto. intros t J KT. destruct (TASKS t J) as [[Y _]|[(q & o & fnd & o' & fnd' & Y1 & Y2 & Y3)|(q & o & fnd & t' & Y1 & Y2 & _)]]; auto. exfalso. congruence.
Qed.
Lemma forwarded_once h k : happens h -> unique h -> once h -> honest h -> (count (forwards k) (effects h) <= 1)%nat.
Proof. intros [s R] U O H. apply (o_le _ _ _ (reach_oi s h k R U O H)). Qed.
