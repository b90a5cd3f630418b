(* The queue manager: the lookups that it has are those that wait. *)
From Coq Require Import ZArith List Bool Lia Permutation Sorting.Sorted.
From Verif Require Import QmgModel QmgSpec QmgProofs QmgEnt QmgQueues QmgOffers.
Import ListNotations.
Local Open Scope Z_scope.

Definition corr (k : Z) (l : look) : bool := l_corr l =? k.
Definition pend (k : Z) (s : state) : nat := count (corr k) (s_lookups s).
Definition ans (k : Z) (ev : list effect) : nat := count (is_answer k) ev.
Lemma count_app {A} (f : A -> bool) a b : count f (a ++ b) = (count f a + count f b)%nat.
Proof. unfold count. now rewrite filter_app, app_length. Qed.
Lemma count_pos {A} (f : A -> bool) l : (0 < count f l)%nat <-> exists x, In x l /\ f x = true.
Proof. unfold count. split. - destruct (filter f l) as [|x r] eqn:F; cbn; [lia|]. intros _. exists x. apply filter_In. rewrite F. now left. - intros (x & I). apply filter_In in I. destruct (filter f l); [destruct I|cbn; lia]. Qed.
Lemma count_zero {A} (f : A -> bool) l : count f l = 0%nat <-> forall x, In x l -> f x = false.
Proof. split. - intros H x I. destruct (f x) eqn:F; auto. assert (0 < count f l)%nat by (apply count_pos; eauto). lia. - intro H. destruct (count f l) eqn:C; auto. assert (0 < count f l)%nat as P by lia. apply count_pos in P as (x & I & F). rewrite H in F; [discriminate|auto]. Qed.
Lemma count_existsb {A} (f : A -> bool) l : existsb f l = false <-> count f l = 0%nat.
Proof. rewrite count_zero. induction l as [|x l IH]; cbn; [tauto|]. rewrite orb_false_iff, IH. split. - intros [A1 B] y [<-|J]; auto. - intro H. split; auto. Qed.
Lemma count_one {A} (f : A -> bool) l x y : (count f l <= 1)%nat -> In x l -> In y l -> f x = true -> f y = true -> x = y.
Proof.
  unfold count. intros C I J F G. assert (In x (filter f l)) by (apply filter_In; auto). assert (In y (filter f l)) by (apply filter_In; auto). destruct (filter f l) as [|a [|b r]]; cbn in *; [tauto| |lia]. intuition congruence.
Qed.
Lemma pend_one k s l l' : (pend k s <= 1)%nat -> In l (s_lookups s) -> In l' (s_lookups s) -> l_corr l = k -> l_corr l' = k -> l = l'.
Proof. intros P I J A B. eapply (count_one (corr k)); eauto; unfold corr; now apply Z.eqb_eq. Qed.
Definition quiet (e : effect) : Prop := (forall p k n a, e <> Answer p k n a) /\ forall p k, e <> Discarded p k true.
Lemma plain_quiet e : plain e = true -> quiet e.
Proof. destruct e; cbn; try discriminate; intros _; split; discriminate. Qed.
Lemma quiet_ans ev k : (forall e, In e ev -> quiet e) -> ans k ev = 0%nat.
Proof. intro H. apply count_zero. intros e I. destruct (H e I) as [Q _]. destruct e; auto. exfalso. eapply Q; eauto. Qed.
Lemma queue_in n a s x : queue n a s = Some x -> In x (s_queues s) /\ i_name x = n /\ enabled a x = true.
Proof. intro H. apply find_some in H as [I E]. apply andb_prop in E as [E1 E2]. apply Z.eqb_eq in E1. auto. Qed.
Lemma queue_none n a s : queue n a s = None <-> forall x, In x (s_queues s) -> i_name x = n -> enabled a x = false.
Proof. unfold queue. rewrite find_some_iff. split; intros H x I. - intro N. specialize (H x I). apply andb_false_iff in H as [H|H]; auto. apply Z.eqb_neq in H. contradiction. - destruct (i_name x =? n) eqn:N; auto. apply Z.eqb_eq in N. cbn. auto. Qed.
Lemma local_queue_in n a s x : local_queue n a s = Some x -> In x (s_queues s) /\ i_name x = n /\ enabled a x = true /\ local x = true.
Proof. intro H. apply find_some in H as [I E]. apply andb_prop in E as [E1 E2]. apply andb_prop in E2 as [E2 E3]. apply Z.eqb_eq in E1. auto. Qed.
Lemma local_queue_none n a s : local_queue n a s = None <-> forall x, In x (s_queues s) -> i_name x = n -> enabled a x = true -> local x = false.
Proof. unfold local_queue. rewrite find_some_iff. split; intros H x I. - intros N E. specialize (H x I). rewrite E in H. apply andb_false_iff in H as [H|H]; auto. apply Z.eqb_neq in H. contradiction. - destruct (i_name x =? n) eqn:N; auto. apply Z.eqb_eq in N. cbn. destruct (enabled a x) eqn:E; auto. cbn. auto. Qed.

(* ---- check ---- *)
Lemma check_lookups s l : In l (s_lookups (fst (check s))) <-> In l (s_lookups s) /\ replied s l = None.
Proof. cbn. rewrite filter_In. destruct (replied s l); intuition congruence. Qed.
Lemma check_answers s e : In e (snd (check s)) <-> exists l x, In l (s_lookups s) /\ replied s l = Some x /\ e = Answer (l_ipc l) (l_corr l) (l_name l) (Some x).
Proof.
  cbn. rewrite in_flat_map. split.
  - intros (l & I & J). destruct (replied s l) as [x|] eqn:E; [|destruct J]. destruct J as [<-|[]]. eauto.
  - intros (l & x & I & E & ->). exists l. rewrite E. cbn. auto.
Qed.
Lemma check_count s k : (ans k (snd (check s)) + pend k (fst (check s)))%nat = pend k s.
Proof.
  unfold ans, pend. cbn [check fst snd with_lookups s_lookups]. set (f := replied s). clearbody f. induction (s_lookups s) as [|l r IH]; cbn [flat_map filter]; auto.
  rewrite count_app. destruct (f l) as [x|]; cbn [count filter length is_answer corr] in *; unfold count in *; cbn [filter is_answer] in *; unfold corr in *; destruct (l_corr l =? k); cbn [length] in *; lia.
Qed.
(* ---- kinds of steps ---- *)
Definition special (i : input) : bool := match i with Lookup _ | DiscardLookup _ _ | Exit _ | Dead _ | Shutdown | Discovered _ => true | _ => false end.
Definition is_check (i : input) : bool := match i with Advertise _ _ _ _ _ | Order _ _ | Reset _ | Configured false _ _ => true | _ => false end.
Lemma kind_same i s : special i = false -> is_check i = false -> s_lookups (fst (step i s)) = s_lookups s /\ (forall e, In e (snd (step i s)) -> quiet e) /\ forall x, In x (s_queues (fst (step i s))) -> In x (s_queues s).
Proof.
  intros S C. destruct (step_queues i s) as [EQ _]. rewrite EQ. clear EQ.
  assert (Q : forall p e, quiet e -> forall e', In e' (send p e s) -> quiet e') by (intros p e Q e' J; unfold send in J; destruct (gone p s); [destruct J|]; destruct J as [<-|[]]; auto).
  destruct i as [m|l|p k|pid ipc n add rem|ipc n|ipc|k|p k|p k int names|f pid ipc|f pid qs|pid|pid|ipc|p k m| | |ipc]; try discriminate; cbn [step queues_after].
  - destruct (then_all_rest (tasks_of (Model [] []) m) s) as [(_ & _ & E & _) P]. unfold conform. split; [auto|]. split; [|auto]. intros e J. apply plain_quiet, P, J.
  - split; [auto|]. split; [|auto]. apply Q. split; discriminate.
  - split; [auto|]. split; [|auto]. apply Q. split; discriminate.
  - rewrite bind_fst, bind_snd. destruct (connect_rest f pid ipc (fst (coordinate (MConnect f pid) s))) as (_ & _ & -> & _). destruct (coordinate_rest (MConnect f pid) s) as [(_ & _ & -> & _) P]. split; [auto|]. split; [|auto]. intros e J. apply in_app_iff in J as [J|J]; [apply plain_quiet, P, J|].
    unfold connect in J. destruct (find_entity _ _); [|destruct J]. destruct J as [<-|[]]. split; discriminate.
  - destruct f; [|discriminate]. rewrite bind_fst, bind_snd. destruct (coordinate_rest (MConfigured true pid) s) as [(_ & _ & E & _) P]. cbn [fst snd]. split; [exact E|]. split; [|auto]. rewrite app_nil_r. intros e J. apply plain_quiet, P, J.
  - cbn. split; [auto|]. split; [tauto|]. intros x J. apply filter_In in J. tauto.
  - rewrite bind_fst, bind_snd. unfold conform. destruct (andthen_rest (TTell p k) (fst (then_all (tasks_of (current s) m) s))) as [(_ & _ & -> & _) P]. destruct (then_all_rest (tasks_of (current s) m) s) as [(_ & _ & -> & _) P']. split; [auto|]. split; [|auto]. intros e J. apply plain_quiet. apply in_app_iff in J as [J|J]; auto.
  - destruct (s_run s); try (split; [reflexivity|]; split; [intros e []|auto]; fail). destruct (ready s); (split; [reflexivity|]; split; [|auto]). + intros e [<-|[]]. split; discriminate. + intros e [].
  - cbn. split; [auto|]. split; [tauto|auto].
Qed.
Lemma kind_check i s : is_check i = true -> exists s2 ev0, s_lookups s2 = s_lookups s /\ s_lost s2 = s_lost s /\ (forall e, In e ev0 -> quiet e) /\ fst (step i s) = fst (check s2) /\ snd (step i s) = ev0 ++ snd (check s2).
Proof.
  intro C. destruct i as [m|l|p k|pid ipc n add rem|ipc n|ipc|k|p k|p k int names|f pid ipc|f pid qs|pid|pid|ipc|p k m| | |ipc]; try discriminate; cbn [step].
  - exists (advertise pid ipc n add rem s), []. split; [|split; [|split; [intros e []|auto]]]; unfold advertise.
    + assert (A : forall l t, s_lookups (fold_left (add_remote pid ipc n) l t) = s_lookups t) by (induction l; intro t; cbn; auto; now rewrite IHl). assert (B : forall l t, s_lookups (fold_left (remove_remote ipc) l t) = s_lookups t) by (induction l; intro t; cbn; auto; now rewrite IHl). rewrite B, A. destruct (existsb _ _); auto.
    + assert (A : forall l t, s_lost (fold_left (add_remote pid ipc n) l t) = s_lost t) by (induction l; intro t; cbn; auto; now rewrite IHl). assert (B : forall l t, s_lost (fold_left (remove_remote ipc) l t) = s_lost t) by (induction l; intro t; cbn; auto; now rewrite IHl). rewrite B, A. destruct (existsb _ _); auto.
  - exists (order_of ipc n s), []. unfold order_of. destruct (existsb _ _); (split; [reflexivity|]; split; [reflexivity|]; split; [intros e []|auto]).
  - exists (drop_ipc ipc s), []. split; [auto|]. split; [auto|]. split; [intros e []|auto].
  - destruct f; [discriminate|]. rewrite bind_fst, bind_snd. exists (update_group pid qs (fst (coordinate (MConfigured false pid) s))), (snd (coordinate (MConfigured false pid) s)).
    destruct (update_group_rest pid qs (fst (coordinate (MConfigured false pid) s))) as (_ & _ & -> & ->). destruct (coordinate_rest (MConfigured false pid) s) as [(_ & _ & -> & _ & ->) P]. split; [auto|]. split; [auto|]. split; [|auto]. intros e J. apply plain_quiet, P, J.
Qed.
Lemma absent_in s l e : In e (absent s l) <-> gone (l_ipc l) s = false /\ e = Answer (l_ipc l) (l_corr l) (l_name l) None.
Proof. unfold absent, send. destruct (gone _ _); cbn; intuition congruence. Qed.
Lemma absent_ans s l k : (ans k (absent s l) <= (if (l_corr l =? k)%Z then 1 else 0))%nat.
Proof. unfold absent, send, ans, count. destruct (gone _ _); cbn; [lia|]. destruct (l_corr l =? k); cbn; lia. Qed.
Lemma count_remove_first {A} (f g : A -> bool) l : (count f (remove_first g l) <= count f l)%nat.
Proof. unfold count. induction l as [|x l IH]; cbn; auto. destruct (g x); [destruct (f x); cbn; lia|]. cbn. destruct (f x); cbn; lia. Qed.
Lemma count_remove_first_same {A} (f : A -> bool) l : (count f (remove_first f l) = count f l - 1)%nat.
Proof. unfold count. induction l as [|x l IH]; cbn; auto. destruct (f x) eqn:F; cbn; [lia|]. rewrite F. cbn. rewrite IH. reflexivity. Qed.
Lemma shutdown_lookups s : s_lookups (fst (step Shutdown s)) = [] /\ exists ev0, snd (step Shutdown s) = flat_map (absent s) (s_lookups s) ++ ev0 /\ forall e, In e ev0 -> quiet e.
Proof.
  cbn [step]. rewrite bind_fst, bind_snd. unfold conform. cbn [discard_all fst snd with_run s_lookups]. match goal with |- context [then_all ?t ?x] => destruct (then_all_rest t x) as [(_ & _ & -> & _) P]; split; [auto|]; exists (snd (then_all t x)) end. split; [|intros e J; apply plain_quiet, P, J].
  reflexivity.
Qed.
Definition discovered (k : Z) (s : state) : state * list effect :=
  match find (fun l => l_corr l =? k) (s_lookups s) with Some l => if l_wait l then (s, []) else (with_lookups (remove_first (fun l => l_corr l =? k) (s_lookups s)) s, absent s l) | None => (s, []) end.
Lemma step_discovered k s : step (Discovered k) s = bind (check s) (discovered k).
Proof. reflexivity. Qed.
Lemma discovered_split k s : (exists l, In l (s_lookups s) /\ l_corr l = k /\ l_wait l = false /\ discovered k s = (with_lookups (remove_first (corr k) (s_lookups s)) s, absent s l)) \/ ((forall l, In l (s_lookups s) -> l_corr l = k -> (pend k s <= 1)%nat -> l_wait l = true) /\ discovered k s = (s, [])).
Proof.
  unfold discovered. destruct (find _ _) as [l|] eqn:F.
  - apply find_some in F as [I E]. apply Z.eqb_eq in E. destruct (l_wait l) eqn:W; [right|left; exists l; auto]. split; [|auto]. intros l' I' E' P. now rewrite (pend_one k s l' l P).
  - right. split; [|auto]. intros l I E. apply (find_none _ _ F) in I. apply Z.eqb_neq in I. contradiction.
Qed.
Definition newl (i : input) (k : Z) : nat := match i with Lookup l => if l_corr l =? k then 1 else 0 | _ => 0 end.
Lemma send_ans p x s k : (ans k (send p x s) <= (if is_answer k x then 1 else 0))%nat.
Proof. unfold send, ans, count. destruct (gone _ _); cbn; [lia|]. destruct (is_answer k x); cbn; lia. Qed.
Lemma pend_push k l s : pend k (push_lookup l s) = (pend k s + (if (l_corr l =? k)%Z then 1 else 0))%nat.
Proof. unfold pend, push_lookup. cbn [with_lookups s_lookups]. rewrite count_app. unfold count at 2. cbn. unfold corr. destruct (_ =? _); reflexivity. Qed.
(* what a lookup can give *)
Lemma lookup_cases l s :
  let Q := if match l_req l with External => true | _ => false end then local_queue (l_name l) (l_act l) s else queue (l_name l) (l_act l) s in
  (fst (lookup l s) = s /\ snd (lookup l s) = absent s l /\ (is_down s = true \/ (l_req l <> Internal /\ l_wait l = false /\ Q = None)))
  \/ (exists x, fst (lookup l s) = s /\ snd (lookup l s) = send (l_ipc l) (Answer (l_ipc l) (l_corr l) (l_name l) (Some x)) s /\ is_down s = false /\ Q = Some x)
  \/ (fst (lookup l s) = push_lookup l s /\ is_down s = false /\ Q = None /\ ((l_req l = Internal /\ snd (lookup l s) = [Discover (l_name l) (l_corr l)]) \/ (l_req l <> Internal /\ l_wait l = true /\ snd (lookup l s) = []))).
Proof.
  cbn. unfold lookup, absent_queue. destruct (is_down s) eqn:D; [left; auto 10|]. destruct (l_req l) eqn:R.
  - destruct (queue _ _ _) as [x|] eqn:Q; [right; left; exists x; auto|right; right; cbn; auto 10].
  - destruct (local_queue _ _ _) as [x|] eqn:Q; [right; left; exists x; auto|]. destruct (l_wait l) eqn:W; [right; right|left]; cbn; (split; [auto|]); (split; [auto|]); [split; [auto|]|]; right; (split; [discriminate|auto]).
  - destruct (queue _ _ _) as [x|] eqn:Q; [right; left; exists x; auto|]. destruct (l_wait l) eqn:W; [right; right|left]; cbn; (split; [auto|]); (split; [auto|]); [split; [auto|]|]; right; (split; [discriminate|auto]).
Qed.
Lemma step_count i s k : (ans k (snd (step i s)) + pend k (fst (step i s)) <= pend k s + newl i k)%nat.
Proof.
  destruct (special i) eqn:S.
  - destruct i as [m|l|p k'|pid ipc n add rem|ipc n|ipc|k'|p k'|p k' int names|f pid ipc|f pid qs|pid|pid|ipc|p k' m| | |ipc]; try discriminate; cbn [newl].
    + cbn [step]. destruct (lookup_cases l s) as [(-> & -> & _)|[(x & -> & -> & _)|(-> & _ & _ & [(_ & ->)|(_ & _ & ->)])]].
      * pose proof (absent_ans s l k). lia.
      * pose proof (send_ans (l_ipc l) (Answer (l_ipc l) (l_corr l) (l_name l) (Some x)) s k) as H. cbn [is_answer] in H. lia.
      * rewrite pend_push. unfold ans, count. cbn. lia.
      * rewrite pend_push. unfold ans, count. cbn. lia.
    + cbn [step]. unfold discard_lookup. destruct (existsb _ _); cbn [fst snd].
      * pose proof (send_ans p (Discarded p k' true) s k) as H. cbn [is_answer] in H. unfold pend. cbn [with_lookups s_lookups]. pose proof (count_remove_first (corr k) (fun l => l_corr l =? k') (s_lookups s)). lia.
      * pose proof (send_ans p (Discarded p k' false) s k) as H. cbn [is_answer] in H. lia.
    + rewrite step_discovered, bind_fst, bind_snd. unfold ans. rewrite count_app. fold (ans k (snd (check s))). pose proof (check_count s k) as CC. destruct (discovered_split k' (fst (check s))) as [(l & I & E & W & ->)|[_ ->]]; cbn [fst snd].
      * pose proof (absent_ans (fst (check s)) l k) as H. fold (ans k (absent (fst (check s)) l)). unfold pend at 1. cbn [with_lookups s_lookups]. rewrite E in H. destruct (k' =? k) eqn:K.
        -- apply Z.eqb_eq in K as ->. rewrite count_remove_first_same. assert (0 < pend k (fst (check s)))%nat by (apply count_pos; exists l; split; [auto|unfold corr; now apply Z.eqb_eq]). unfold pend in *. lia.
        -- pose proof (count_remove_first (corr k) (corr k') (s_lookups (fst (check s)))). unfold pend in *. lia.
      * assert (count (is_answer k) [] = 0%nat) as -> by reflexivity. lia.
    + cbn. unfold pend, remove. cbn. unfold count. rewrite filter_filter.
      assert (forall l : list look, length (filter (fun x => negb (l_pid x =? pid)%Z && corr k x) l) <= length (filter (corr k) l))%nat. { induction l as [|x r IH]; cbn; auto. destruct (corr k x), (l_pid x =? pid); cbn; lia. } apply (Nat.le_trans _ _ _ (H _)). lia.
    + cbn [step]. rewrite bind_fst, bind_snd. cbn [fst snd]. rewrite app_nil_r. destruct (coordinate_rest (MDead pid) s) as [(_ & _ & E & _) P]. rewrite quiet_ans by (intros e J; apply plain_quiet, P, J). unfold pend, remove. cbn. rewrite E. unfold count. rewrite filter_filter.
      assert (forall l : list look, length (filter (fun x => negb (l_pid x =? pid)%Z && corr k x) l) <= length (filter (corr k) l))%nat. { induction l as [|x r IH]; cbn; auto. destruct (corr k x), (l_pid x =? pid); cbn; lia. } apply (Nat.le_trans _ _ _ (H _)). lia.
    + destruct (shutdown_lookups s) as (E & ev0 & -> & Q). unfold ans. rewrite count_app. fold (ans k ev0). rewrite (quiet_ans ev0 k Q). unfold pend. rewrite E. cbn. unfold count at 2. cbn.
      enough (forall r, count (is_answer k) (flat_map (absent s) r) <= count (corr k) r)%nat as H by (specialize (H (s_lookups s)); unfold count in *; lia). induction r as [|l r IH]; cbn [flat_map]; auto. rewrite count_app. pose proof (absent_ans s l k) as H. unfold ans in H.
      change (l :: r) with ([l] ++ r). rewrite count_app. assert (count (corr k) [l] = if (l_corr l =? k)%Z then 1 else 0)%nat as ->; [|lia]. unfold count, corr. cbn. destruct (_ =? _); reflexivity.
  - destruct (is_check i) eqn:C.
    + destruct (kind_check i s C) as (s2 & ev0 & EL & _ & Q & -> & ->). unfold ans. rewrite count_app. fold (ans k ev0). rewrite (quiet_ans ev0 k Q). pose proof (check_count s2 k) as H. unfold ans in H. unfold pend in *. rewrite EL in H. lia.
    + destruct (kind_same i s S C) as (E & Q & _). rewrite (quiet_ans _ k Q). unfold pend. rewrite E. lia.
Qed.
(* the lookup is ended by the input alone *)
Definition ended (i : input) (l : look) : bool := match i with DiscardLookup _ k => k =? l_corr l | Exit pid | Dead pid => pid =? l_pid l | _ => false end.
Lemma step_from i s l : (pend (l_corr l) s <= 1)%nat -> In l (s_lookups (fst (step i s))) -> (In l (s_lookups s) \/ i = Lookup l) /\ ended i l = false.
Proof.
  intros P J. destruct (special i) eqn:S.
  - destruct i as [m|l'|p k'|pid ipc n add rem|ipc n|ipc|k'|p k'|p k' int names|f pid ipc|f pid qs|pid|pid|ipc|p k' m| | |ipc]; try discriminate; cbn [ended].
    + split; [|auto]. cbn [step] in J. destruct (lookup_cases l' s) as [(E & _)|[(x & E & _)|(E & _)]]; rewrite E in J; auto. unfold push_lookup in J. cbn in J. apply in_snoc in J as [J|J]; subst; auto.
    + cbn [step] in J. unfold discard_lookup in J. destruct (existsb _ _) eqn:X; cbn in J.
      * split; [left; eapply remove_first_in; eauto|]. destruct (k' =? l_corr l) eqn:K; auto. apply Z.eqb_eq in K. subst k'. exfalso. pose proof (count_remove_first_same (corr (l_corr l)) (s_lookups s)) as H. unfold pend in P. assert (0 < count (corr (l_corr l)) (remove_first (corr (l_corr l)) (s_lookups s)))%nat; [|lia]. apply count_pos. exists l. split; [exact J|]. unfold corr. apply Z.eqb_refl.
      * split; [auto|]. destruct (k' =? l_corr l) eqn:K; auto. exfalso. assert (existsb (fun l => l_corr l =? k') (s_lookups s) = true); [|congruence]. apply existsb_exists. exists l. split; [auto|]. now rewrite Z.eqb_sym.
    + split; [|auto]. left. rewrite step_discovered, bind_fst in J. destruct (discovered_split k' (fst (check s))) as [(l0 & I & E & W & X)|[_ X]]; rewrite X in J; cbn [fst] in J.
      * unfold with_lookups in J. cbn [s_lookups] in J. apply remove_first_in in J. now apply check_lookups in J.
      * now apply check_lookups in J.
    + cbn in J. apply filter_In in J as [J E]. apply negb_true_iff in E. rewrite Z.eqb_sym. auto.
    + cbn [step] in J. rewrite bind_fst in J. cbn in J. destruct (coordinate_rest (MDead pid) s) as [(_ & _ & E & _) _]. rewrite E in J. apply filter_In in J as [J X]. apply negb_true_iff in X. rewrite Z.eqb_sym. auto.
    + destruct (shutdown_lookups s) as [E _]. rewrite E in J. destruct J.
  - assert (ended i l = false) as -> by (destruct i; try discriminate; auto). split; [left|auto]. destruct (is_check i) eqn:C.
    + destruct (kind_check i s C) as (s2 & ev0 & EL & _ & Q & E & _). rewrite E in J. apply check_lookups in J as [J _]. congruence.
    + destruct (kind_same i s S C) as (E & _). congruence.
Qed.
Lemma ans_in e k ev : In e ev -> is_answer k e = true -> ans k ev <> 0%nat.
Proof. intros I F C. rewrite (proj1 (count_zero _ _) C e I) in F. discriminate. Qed.
Lemma step_stays i s l : (pend (l_corr l) s <= 1)%nat -> In l (s_lookups s) \/ i = Lookup l -> gone (l_ipc l) s = false -> ans (l_corr l) (snd (step i s)) = 0%nat -> ended i l = false -> In l (s_lookups (fst (step i s))).
Proof.
  intros P J G A N. destruct (special i) eqn:S.
  - destruct i as [m|l'|p k'|pid ipc n add rem|ipc n|ipc|k'|p k'|p k' int names|f pid ipc|f pid qs|pid|pid|ipc|p k' m| | |ipc]; try discriminate; cbn [ended] in N.
    + cbn [step] in *. destruct (lookup_cases l' s) as [(E & V & _)|[(x & E & V & _)|(E & _)]]; rewrite E.
      * destruct J as [J|J]; [auto|]. injection J as ->. exfalso. revert A. apply (ans_in (Answer (l_ipc l) (l_corr l) (l_name l) None)); [rewrite V; apply absent_in; auto|]. cbn. apply Z.eqb_refl.
      * destruct J as [J|J]; [auto|]. injection J as ->. exfalso. revert A. apply (ans_in (Answer (l_ipc l) (l_corr l) (l_name l) (Some x))); [rewrite V; unfold send; rewrite G; now left|]. cbn. apply Z.eqb_refl.
      * cbn. apply in_snoc. destruct J as [J|J]; [auto|]. injection J as ->. auto.
    + destruct J as [J|J]; [|discriminate]. cbn [step]. unfold discard_lookup. destruct (existsb _ _); cbn; [|auto]. apply in_remove_first; auto. rewrite Z.eqb_sym. auto.
    + destruct J as [J|J]; [|discriminate]. rewrite step_discovered in *. rewrite bind_fst. rewrite bind_snd in A. unfold ans in A. rewrite count_app in A.
      assert (C : In l (s_lookups (fst (check s)))).
      { apply check_lookups. split; [auto|]. destruct (replied s l) as [x|] eqn:X; [|auto]. exfalso. assert (ans (l_corr l) (snd (check s)) <> 0)%nat as H; [|unfold ans in H; lia]. apply (ans_in (Answer (l_ipc l) (l_corr l) (l_name l) (Some x))); [apply check_answers; eauto|]. cbn. apply Z.eqb_refl. }
      destruct (discovered_split k' (fst (check s))) as [(l0 & I & E & W & X)|[_ X]]; rewrite X in *; cbn [fst snd] in *; [|auto]. cbn [with_lookups s_lookups]. apply in_remove_first; auto. destruct (corr k' l) eqn:K; auto. apply Z.eqb_eq in K. exfalso.
      assert (l0 = l). { apply check_lookups in C as [C _]. apply check_lookups in I as [I _]. eapply (pend_one (l_corr l) s); eauto. congruence. } subst l0.
      assert (ans (l_corr l) (absent (fst (check s)) l) <> 0)%nat as H; [|unfold ans in H; lia]. apply (ans_in (Answer (l_ipc l) (l_corr l) (l_name l) None)); [apply absent_in; auto|]. cbn. apply Z.eqb_refl.
    + destruct J as [J|J]; [|discriminate]. cbn. apply filter_In. split; auto. rewrite Z.eqb_sym, N. auto.
    + destruct J as [J|J]; [|discriminate]. cbn [step]. rewrite bind_fst. cbn. destruct (coordinate_rest (MDead pid) s) as [(_ & _ & E & _) _]. rewrite E. apply filter_In. split; auto. rewrite Z.eqb_sym, N. auto.
    + destruct J as [J|J]; [|discriminate]. exfalso. destruct (shutdown_lookups s) as (_ & ev0 & V & _). revert A. apply (ans_in (Answer (l_ipc l) (l_corr l) (l_name l) None)); [|cbn; apply Z.eqb_refl]. rewrite V. apply in_or_app. left. apply in_flat_map. exists l. split; [auto|]. apply absent_in. auto.
  - destruct J as [J|J]; [|subst i; discriminate]. destruct (is_check i) eqn:C.
    + destruct (kind_check i s C) as (s2 & ev0 & EL & ELo & Q & E & V). rewrite E. apply check_lookups. split; [congruence|]. destruct (replied s2 l) as [x|] eqn:X; [|auto]. exfalso. revert A. apply (ans_in (Answer (l_ipc l) (l_corr l) (l_name l) (Some x))); [|cbn; apply Z.eqb_refl]. rewrite V. apply in_or_app. right. apply check_answers. exists l, x. rewrite EL. auto.
    + destruct (kind_same i s S C) as (E & _). congruence.
Qed.
