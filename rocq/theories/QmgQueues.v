(* The queue manager: the queues that it knows are those that are offered. *)
From Coq Require Import ZArith List Bool Lia Permutation Sorting.Sorted.
From Verif Require Import QmgModel QmgSpec QmgProofs QmgEnt.
Import ListNotations.
Local Open Scope Z_scope.

(* ---- what a step does with the queues ---- *)
Lemma lookup_same l s : s_queues (fst (lookup l s)) = s_queues s /\ s_remotes (fst (lookup l s)) = s_remotes s /\ s_run (fst (lookup l s)) = s_run s /\ s_lost (fst (lookup l s)) = s_lost s.
Proof. unfold lookup, absent_queue. destruct (is_down s); [auto|]. destruct (l_req l); (destruct (queue _ _ _) || destruct (local_queue _ _ _)); auto; destruct (l_wait l); auto. Qed.
Lemma connect_rest f pid ipc s : same_rest (fst (connect f pid ipc s)) s.
Proof. unfold connect. destruct (find_entity _ _); cbn; [apply with_entities_rest|apply same_rest_refl]. Qed.
Definition queues_after (i : input) (s : state) : list inst :=
  match i with
  | Advertise pid ipc n add rem => s_queues (advertise pid ipc n add rem s)
  | Order ipc n => s_queues (order_of ipc n s)
  | Reset ipc | Destroyed ipc => s_queues (drop_ipc ipc s)
  | Exit pid | Dead pid => s_queues (drop_pid pid s)
  | Configured false pid qs => s_queues (update_group pid qs (fst (coordinate (MConfigured false pid) s)))
  | _ => s_queues s
  end.
Definition remotes_after (i : input) (s : state) : list (Z * Z) :=
  match i with
  | Advertise pid ipc n add rem => s_remotes (advertise pid ipc n add rem s)
  | Exit pid | Dead pid => filter (fun r => negb (fst r =? pid)) (s_remotes s)
  | _ => s_remotes s
  end.
Lemma update_group_rest pid qs s : s_remotes (update_group pid qs s) = s_remotes s /\ s_run (update_group pid qs s) = s_run s /\ s_lost (update_group pid qs s) = s_lost s /\ s_lookups (update_group pid qs s) = s_lookups s.
Proof.
  unfold update_group. destruct (find_entity _ _) as [e|]; [|auto].
  assert (H : forall l t, s_remotes (fold_left (add_local e) l t) = s_remotes t /\ s_run (fold_left (add_local e) l t) = s_run t /\ s_lost (fold_left (add_local e) l t) = s_lost t /\ s_lookups (fold_left (add_local e) l t) = s_lookups t).
  { induction l as [|q l IH]; intro t; cbn; [auto|]. destruct (IH (add_local e t q)) as (-> & -> & -> & ->). auto. }
  destruct (H qs (with_entities false (on_entity pid (set_life 3) (s_groups (drop_pid pid s))) (drop_pid pid s))) as (-> & -> & -> & ->). auto.
Qed.
Lemma step_queues i s : s_queues (fst (step i s)) = queues_after i s /\ s_remotes (fst (step i s)) = remotes_after i s.
Proof.
  destruct i as [m|l|p k|pid ipc n add rem|ipc n|ipc|k|p k|p k int names|f pid ipc|f pid qs|pid|pid|ipc|p k m| | |ipc]; cbn [step queues_after remotes_after].
  - destruct (then_all_rest (tasks_of (Model [] []) m) s) as [(A & B & C & D & E) _]. auto.
  - destruct (lookup_same l s) as (-> & -> & _). auto.
  - unfold discard_lookup. destruct (existsb _ _); auto.
  - auto.
  - split; [reflexivity|]. cbn. unfold order_of. destruct (existsb _ _); auto.
  - auto.
  - rewrite bind_fst. destruct (find _ _) as [l|]; [destruct (l_wait l)|]; auto.
  - auto.
  - auto.
  - rewrite bind_fst. destruct (connect_rest f pid ipc (fst (coordinate (MConnect f pid) s))) as (_ & -> & _ & -> & _). destruct (coordinate_rest (MConnect f pid) s) as [(_ & -> & _ & -> & _) _]. auto.
  - destruct f; rewrite bind_fst; [cbn|]; destruct (coordinate_rest (MConfigured true pid) s) as [(_ & B & _ & C & _) _]; destruct (coordinate_rest (MConfigured false pid) s) as [(_ & B' & _ & C' & _) _]; [auto|]. split; [reflexivity|]. cbn. destruct (update_group_rest pid qs (fst (coordinate (MConfigured false pid) s))) as (-> & _). auto.
  - auto.
  - rewrite bind_fst. cbn. destruct (coordinate_rest (MDead pid) s) as [(_ & -> & _ & -> & _) _]. auto.
  - auto.
  - rewrite bind_fst; unfold conform. destruct (andthen_rest (TTell p k) (fst (then_all (tasks_of (current s) m) s))) as [(_ & -> & _ & -> & _) _]. destruct (then_all_rest (tasks_of (current s) m) s) as [(_ & -> & _ & -> & _) _]. auto.
  - rewrite bind_fst. unfold conform. match goal with |- s_queues (fst (then_all ?t ?x)) = _ /\ _ => destruct (then_all_rest t x) as [(_ & -> & _ & -> & _) _] end. auto.
  - destruct (s_run s); auto. destruct (ready s); auto.
  - auto.
Qed.
Definition remote_inst (pid ipc : Z) (n : nat) (q : Z * (bool * bool)) : inst := Inst (fst q) pid ipc remote_id (n + 1) (fst (snd q)) (snd (snd q)).
Definition local_inst (e : entity) (q : Z * Z) : inst := Inst (fst q) (e_pid e) (e_ipc e) (snd q) 0 (fst (enable_of (e_conf e) (fst q))) (snd (enable_of (e_conf e) (fst q))).
Definition inserts (l : list inst) (a : list inst) : list inst := fold_left (fun a x => insert x a) l a.
Lemma add_remotes pid ipc n l : forall s, s_queues (fold_left (add_remote pid ipc n) l s) = inserts (map (remote_inst pid ipc n) l) (s_queues s).
Proof. unfold inserts. induction l as [|q l IH]; intro s; cbn; auto. rewrite IH. reflexivity. Qed.
Lemma add_locals e l : forall s, s_queues (fold_left (add_local e) l s) = inserts (map (local_inst e) l) (s_queues s).
Proof. unfold inserts. induction l as [|q l IH]; intro s; cbn; auto. rewrite IH. reflexivity. Qed.
Lemma filter_filter {A} (f g : A -> bool) l : filter f (filter g l) = filter (fun x => g x && f x) l.
Proof. induction l as [|x l IH]; cbn; auto. destruct (g x); cbn; [destruct (f x); now rewrite IH|auto]. Qed.
Lemma remove_remotes ipc l : forall s, s_queues (fold_left (remove_remote ipc) l s) = filter (fun x => negb ((i_ipc x =? ipc) && existsb (Z.eqb (i_name x)) l)) (s_queues s).
Proof.
  induction l as [|q l IH]; intro s; cbn [fold_left].
  - symmetry. induction (s_queues s) as [|x r IHr]; cbn in *; auto. rewrite andb_false_r. cbn. now rewrite IHr.
  - rewrite IH. cbn. rewrite filter_filter. apply filter_ext. intro x. destruct (i_ipc x =? ipc), (i_name x =? q), (existsb (Z.eqb (i_name x)) l); reflexivity.
Qed.
Lemma inserts_in l a y : In y (inserts l a) <-> In y l \/ In y a.
Proof. unfold inserts. rewrite <- in_app_iff. split; apply Permutation_in; [|apply Permutation_sym]; apply fold_insert_perm. Qed.
Lemma advertise_queues pid ipc n add rem s : s_queues (advertise pid ipc n add rem s) = filter (fun x => negb ((i_ipc x =? ipc) && existsb (Z.eqb (i_name x)) rem)) (inserts (map (remote_inst pid ipc n) add) (s_queues s)).
Proof. unfold advertise. rewrite remove_remotes, add_remotes. destruct (existsb _ (s_remotes s)); reflexivity. Qed.
Lemma advertise_remotes pid ipc n add rem s : s_remotes (advertise pid ipc n add rem s) = if existsb (fun r => (fst r =? pid) && (snd r =? ipc)) (s_remotes s) then s_remotes s else s_remotes s ++ [(pid, ipc)].
Proof.
  unfold advertise. assert (A : forall l t, s_remotes (fold_left (add_remote pid ipc n) l t) = s_remotes t) by (induction l; intro t; cbn; auto; now rewrite IHl).
  assert (B : forall l t, s_remotes (fold_left (remove_remote ipc) l t) = s_remotes t) by (induction l; intro t; cbn; auto; now rewrite IHl). rewrite B, A. destruct (existsb _ _); reflexivity.
Qed.
Lemma advertise_remote_in pid ipc n add rem s : In (pid, ipc) (s_remotes (advertise pid ipc n add rem s)) /\ forall r, In r (s_remotes s) -> In r (s_remotes (advertise pid ipc n add rem s)).
Proof.
  rewrite advertise_remotes. destruct (existsb _ _) eqn:E.
  - split; [|auto]. apply existsb_exists in E as ([a b] & I & E). cbn in E. apply andb_prop in E as [E1 E2]. apply Z.eqb_eq in E1, E2. now subst.
  - split; intros; apply in_or_app; cbn; auto.
Qed.
(* ---- offers, at the last input ---- *)
Lemma offers_inv x h i ev : offers x (h ++ [(i, ev)]) ->
  (exists pid ipc c qs name id, i = Configured false pid qs /\ x = Inst name pid ipc id 0 (fst (enable_of c name)) (snd (enable_of c name)) /\ In (Spawn false c pid) (effects h) /\ In (Connect false pid ipc) (inputs h) /\ ~ exited pid h /\ In (name, id) qs)
  \/ (exists pid ipc n add rem name e d, i = Advertise pid ipc n add rem /\ x = Inst name pid ipc remote_id (n + 1) e d /\ In (name, (e, d)) add /\ ~ In name rem)
  \/ (exists y, offers y h /\ withdraws i y = false /\ x = changed i y).
Proof.
  intro H. remember (h ++ [(i, ev)]) as g eqn:G. destruct H as [h' ev' pid ipc c qs name id A B C D|h' ev' pid ipc n add rem name e d A B|h' y i' ev' A B]; apply snoc_inj in G as [-> G]; injection G as <- <-.
  - left. exists pid, ipc, c, qs, name, id. auto 10.
  - right. left. exists pid, ipc, n, add, rem, name, e, d. auto.
  - right. right. exists y. auto.
Qed.
Lemma offers_nil x : ~ offers x [].
Proof. intro H. remember [] as g eqn:G. destruct H; now apply app_eq_nil in G as [_ G]. Qed.
Lemma once_inv h i ev : once (h ++ [(i, ev)]) -> once h /\ forall pid ipc n add rem, i = Advertise pid ipc n add rem -> NoDup (map fst add) /\ forall x, offers x h -> i_ipc x = ipc -> ~ In (i_name x) (map fst add).
Proof. intro H. remember (h ++ [(i, ev)]) as g eqn:G. destruct H as [|h' i' ev' A B]; [symmetry in G; now apply app_eq_nil in G as [_ G]|]. apply snoc_inj in G as [-> G]. injection G as <- <-. auto. Qed.
(* ---- the order of one gateway ---- *)
Definition key (x : inst) : Z * Z := (i_name x, i_ipc x).
Definition far (l : list inst) : list inst := filter (fun x => negb (local x)) l.
Definition uniq (l : list inst) : Prop := NoDup (map key (far l)).
Lemma filter_perm {A} (f : A -> bool) l l' : Permutation l l' -> Permutation (filter f l) (filter f l').
Proof. induction 1 as [|x l l' P IH|x y l|l l' l'' P1 IH1 P2 IH2]; cbn; auto. - destruct (f x); auto. - destruct (f x), (f y); auto using perm_swap. - eapply perm_trans; eauto. Qed.
Lemma uniq_perm l l' : Permutation l l' -> uniq l -> uniq l'.
Proof. intros P. unfold uniq, far. apply Permutation_NoDup, Permutation_map, filter_perm, P. Qed.
Lemma uniq_filter f l : uniq l -> uniq (filter f l).
Proof.
  unfold uniq, far. induction l as [|x l IH]; cbn; auto. intro H. destruct (f x) eqn:F; cbn.
  - destruct (negb (local x)) eqn:L; cbn in *; [|auto]. inversion H as [|? ? N R]; subst. constructor; auto. intro J. apply N. apply in_map_iff in J as (y & E & J). rewrite <- E. apply in_map. apply filter_In in J as [J1 J2]. apply filter_In in J1 as [J1 _]. apply filter_In. auto.
  - apply IH. destruct (negb (local x)); cbn in H; auto. now inversion H.
Qed.
Lemma in_far l x : In x (far l) <-> In x l /\ local x = false.
Proof. unfold far. rewrite filter_In, negb_true_iff. tauto. Qed.
Lemma uniq_same l x y : uniq l -> In x l -> In y l -> local x = false -> local y = false -> i_name x = i_name y -> i_ipc x = i_ipc y -> x = y.
Proof.
  intros U X Y LX LY N P. assert (FX : In x (far l)) by (apply in_far; auto). assert (FY : In y (far l)) by (apply in_far; auto). unfold uniq in U. clear -U FX FY N P.
  induction (far l) as [|z r IH]; cbn in *; [tauto|]. inversion U as [|? ? NI R]; subst. assert (K : key x = key y) by (unfold key; congruence). destruct FX as [<-|FX], FY as [<-|FY]; auto.
  - exfalso. apply NI. rewrite K. now apply in_map.
  - exfalso. apply NI. rewrite <- K. now apply in_map.
Qed.
Lemma with_order_same x n : i_name (with_order n x) = i_name x /\ i_ipc (with_order n x) = i_ipc x /\ i_pid (with_order n x) = i_pid x /\ i_id (with_order n x) = i_id x /\ i_enq (with_order n x) = i_enq x /\ i_deq (with_order n x) = i_deq x /\ i_order (with_order n x) = n.
Proof. auto 10. Qed.
Definition order_to (ipc : Z) (n : nat) (x : inst) : inst := if i_ipc x =? ipc then with_order n x else x.
Lemma reorder_map ipc n l : forall done, uniq l -> (forall x, In x l -> i_ipc x = ipc -> local x = false) -> (forall x, In x l -> i_ipc x = ipc -> ~ In (i_name x) done) -> reorder ipc n done l = map (order_to ipc n) l.
Proof.
  induction l as [|x r IH]; intros done U F D; cbn [reorder map]; auto. unfold order_to at 1. destruct (i_ipc x =? ipc) eqn:E; cbn [andb].
  - apply Z.eqb_eq in E. assert (~ In (i_name x) done) as N by (apply D; cbn; auto). destruct (existsb (Z.eqb (i_name x)) done) eqn:X; [apply existsb_eqb in X; contradiction|]. cbn. f_equal.
    assert (LX : local x = false) by (apply F; cbn; auto). unfold uniq, far in U. cbn in U. rewrite LX in U. cbn in U. inversion U as [|? ? NI R]; subst. apply IH; auto.
    + intros y Y; apply F; cbn; auto.
    + intros y Y P [Q|Q]; [|eapply D; eauto; cbn; auto]. apply NI. replace (key x) with (key y) by (unfold key; congruence). apply in_map, in_far. split; auto. apply F; cbn; auto.
  - f_equal. apply IH; auto.
    + unfold uniq, far in *. cbn in U. destruct (negb (local x)); auto. now inversion U.
    + intros y Y; apply F; cbn; auto. + intros y Y P; apply D; cbn; auto.
Qed.
(* in general *)
Definition like (y x : inst) : Prop := i_name y = i_name x /\ i_pid y = i_pid x /\ i_ipc y = i_ipc x /\ i_id y = i_id x /\ i_enq y = i_enq x /\ i_deq y = i_deq x /\ local y = local x.
Lemma like_refl x : like x x.
Proof. unfold like. auto 10. Qed.
Lemma like_trans a b c : like a b -> like b c -> like a c.
Proof. unfold like. intuition congruence. Qed.
Lemma like_sym a b : like a b -> like b a.
Proof. unfold like. intuition congruence. Qed.
Lemma reorder_in ipc n l : forall done x, In x l -> (i_ipc x = ipc -> local x = false) -> exists y, In y (reorder ipc (n + 1) done l) /\ like y x.
Proof.
  assert (W : forall x, local x = false -> like (with_order (n + 1) x) x). { intros x L. unfold like. cbn. repeat (split; [reflexivity|]). unfold local in *. cbn. rewrite L. apply Nat.eqb_neq. lia. }
  induction l as [|z r IH]; intros done x J F; [destruct J|]. destruct J as [->|J]; cbn [reorder].
  - destruct (_ && _) eqn:E; [|exists x; split; [now left|apply like_refl]]. exists (with_order (n + 1) x). split; [now left|]. apply W, F. apply andb_prop in E as [E _]. now apply Z.eqb_eq.
  - destruct (_ && _); [destruct (IH (i_name z :: done) x J F) as (y & A & B)|destruct (IH done x J F) as (y & A & B)]; exists y; split; auto; now right.
Qed.
Lemma in_reorder ipc n l : forall done y, In y (reorder ipc (n + 1) done l) -> (forall x, In x l -> i_ipc x = ipc -> local x = false) -> exists x, In x l /\ like y x.
Proof.
  assert (W : forall x, local x = false -> like (with_order (n + 1) x) x). { intros x L. unfold like. cbn. repeat (split; [reflexivity|]). unfold local in *. cbn. rewrite L. apply Nat.eqb_neq. lia. }
  induction l as [|z r IH]; intros done y J F; cbn [reorder] in J; [destruct J|]. destruct (_ && _) eqn:E.
  - destruct J as [<-|J]; [exists z; split; [now left|]|destruct (IH _ _ J) as (x & A & B); [intros; apply F; cbn; auto|exists x; split; [now right|auto]]]. apply W, F; [now left|]. apply andb_prop in E as [E _]. now apply Z.eqb_eq.
  - destruct J as [<-|J]; [exists z; split; [now left|apply like_refl]|destruct (IH _ _ J) as (x & A & B); [intros; apply F; cbn; auto|exists x; split; [now right|auto]]].
Qed.
