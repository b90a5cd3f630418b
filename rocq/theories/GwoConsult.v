(* Prepare, commit, rollback and discovery; what is advertised. *)
From Coq Require Import ZArith List Bool Lia.
From Verif Require Import GwoModel GwoSpec GwoProofs GwoInv GwoKeep GwoTight GwoReply GwoWire GwoTold GwoLost GwoClose.
Import ListNotations.
Local Open Scope Z_scope.

(* ---- the destinations: some are removed, some are added at the end ---- *)
Definition ds (s : state) (L : list dest) (s' : state) (ev : list effect) : Prop :=
  (exists p, s_dests s' = filter p (s_dests s ++ L)) /\ (forall p k, count (consulted p k) ev = 0%nat).
Lemma ds_none s s' ev : s_dests s' = s_dests s -> (forall p k, count (consulted p k) ev = 0%nat) -> ds s [] s' ev.
Proof. intros E C. split; auto. exists (fun _ => true). now rewrite app_nil_r, filter_true. Qed.
Lemma ds_trans s L s1 s2 e1 e2 : ds s L s1 e1 -> ds s1 [] s2 e2 -> ds s L s2 (e1 ++ e2).
Proof.
  intros [[p1 E1] C1] [[p2 E2] C2]. split; [|intros; rewrite count_app, C1, C2; reflexivity]. exists (fun x => p1 x && p2 x). now rewrite E2, E1, app_nil_r, filter_filter.
Qed.
Lemma ds_bind s L r f : sat r (ds s L) -> (forall s1, sat (f s1) (ds s1 [])) -> sat (bind r f) (ds s L).
Proof. intros A B. apply (sat_bind _ _ _ _ A). intros s1 e1 H. apply (sat_weaken _ _ _ (B s1)). intros s2 e2 H2. eapply ds_trans; eauto. Qed.
Lemma failed_consulted t p k : count (consulted p k) (failed t) = 0%nat.
Proof. unfold failed. destruct (q_kind _); reflexivity. Qed.
Lemma unadvertise_consulted f s p k : count (consulted p k) (unadvertise f s) = 0%nat.
Proof. unfold unadvertise. destruct (by_sock f s); reflexivity. Qed.
Lemma unadvertise_service_consulted f x s p k : count (consulted p k) (unadvertise_service f x s) = 0%nat.
Proof. unfold unadvertise_service. destruct (by_sock f s); reflexivity. Qed.
Lemma lost_ds f s : sat (lost f s) (ds s []).
Proof.
  unfold lost. destruct (by_sock f s); [|exact I]. split; [exists (fun d => negb (d_sock d =? f)); now rewrite app_nil_r|]. intros p k. cbn. rewrite count_app, unadvertise_consulted. cbn.
  induction (s_tasks s) as [|t l IH]; cbn; auto. rewrite count_app, IH. destruct (k_sock t =? f); [now rewrite failed_consulted|reflexivity].
Qed.
Lemma send_ds ok f m s : sat (send ok f m s) (ds s []).
Proof. unfold send. destruct (by_sock f s); [|now apply ds_none]. destruct ok; [now apply ds_none|]. apply ds_bind; [apply lost_ds|]. intro; now apply ds_none. Qed.
Lemma involve_ds t f s : sat (involve t f s) (ds s []).
Proof. unfold involve. destruct t as [[g b]|]; [|now apply ds_none]. destruct (associate _ _ _) as [first l]. destruct first; [destruct (by_sock f s)|]; now apply ds_none. Qed.
Lemma ds_from s0 s L s' ev : s_dests s = s_dests s0 -> ds s L s' ev -> ds s0 L s' ev.
Proof. unfold ds. intros ->. auto. Qed.
Definition added (m : inward) (f : sock) (s : state) : list dest :=
  match m with
  | InResource _ k p _ _ => if existsb (fun d => d_corr d =? k) (s_dests s) then [] else [Dest k p f]
  | InDiscover k p _ => if s_down s || is_leaving f s then [] else if existsb (fun d => d_corr d =? k) (s_dests s) then [] else [Dest k p f]
  | _ => []
  end.
Lemma add_dest_ds k p f s : ds s (if existsb (fun d => d_corr d =? k) (s_dests s) then [] else [Dest k p f]) (add_dest k p f s) [].
Proof.
  unfold add_dest. destruct (existsb _ _); [now apply ds_none|]. split; auto. exists (fun _ => true). cbn. now rewrite filter_true.
Qed.
Lemma inward_ds ok n m s : sat (inward_step ok n m s) (fun s' ev =>
  ds s (added m (c_sock n) s) s' ev \/ exists k p data, m = InDiscover k p data /\ s' = s /\ ev = [ToProcess p (Discovered k None)] /\ s_down s || is_leaving (c_sock n) s = true).
Proof.
  assert (AT : forall q s1, sat (involve (q_trid q) (c_sock n) (add_task (c_sock n) q s1)) (ds s1 [])).
  { intros q s1. apply (sat_weaken _ _ _ (involve_ds _ _ _)). intros s2 e. now apply ds_from. }
  assert (AD : forall k p w, sat (send ok (c_sock n) w (add_dest k p (c_sock n) s)) (ds s (if existsb (fun d => d_corr d =? k) (s_dests s) then [] else [Dest k p (c_sock n)]))).
  { intros k p w. apply (sat_weaken _ _ _ (send_ds ok _ _ _)). intros s2 e H. apply (ds_trans _ _ _ _ [] e (add_dest_ds k p (c_sock n) s) H). }
  destruct m as [q|k data|k|r k p t data|k p data|data]; cbn -[sat].
  - apply (sat_weaken _ (ds s []) _); [|auto]. destruct (q_kind q).
    + unfold call_request. destruct (has_corr _ _); [now apply ds_none|]. destruct (c_old n).
      * apply ds_bind; [apply AT|]. intro; apply send_ds.
      * pose proof (send_ds ok (c_sock n) (WRequest false q) s) as H. destruct (send ok (c_sock n) (WRequest false q) s); auto. destruct ok; [|exact I]. apply ds_bind; auto.
    + unfold queue_request. apply ds_bind; [apply send_ds|]. intro; apply AT.
    + unfold queue_request. apply ds_bind; [apply send_ds|]. intro; apply AT.
    + unfold connect_request. apply ds_bind; [apply AT|]. intro; apply send_ds.
  - apply (sat_weaken _ (ds s []) _); [apply send_ds|auto].
  - apply (sat_weaken _ (ds s []) _); [|auto]. unfold disconnect_conversation. destruct (first_task k s) as [t|]; [|now apply ds_none]. destruct (q_kind (k_request t)); try now apply ds_none.
    destruct (by_sock (k_sock t) s) eqn:B; [|now apply ds_none]. unfold send. rewrite B. destruct ok; [|destruct (bind _ _); exact I]. now apply ds_none.
  - apply (sat_weaken _ _ _ (AD k p _)); auto.
  - destruct (s_down s) eqn:D; [right; exists k, p, data; auto|]. destruct (is_leaving (c_sock n) s) eqn:L; [right; exists k, p, data; auto|]. apply (sat_weaken _ _ _ (AD k p _)); auto.
  - apply (sat_weaken _ (ds s []) _); [|auto]. destruct (s_down s); [now apply ds_none|]. destruct (is_leaving _ _); [now apply ds_none|]. apply send_ds.
Qed.
Definition takes (k : corr) (s s' : state) (ev : list effect) (m : dest -> answer) : Prop :=
  s_dests s' = without_dest k (s_dests s) /\
  match find (fun d => d_corr d =? k) (s_dests s) with
  | Some d => (exists e1, ev = e1 ++ [ToProcess (d_ipc d) (m d)] /\ forall p k, count (consulted p k) e1 = 0%nat)
  | None => forall p k, count (consulted p k) ev = 0%nat
  end.
Lemma outward_ds ok n m s : sat (outward_step ok n m s) (fun s' ev =>
  match m with
  | XResource r k data => takes k s s' ev (fun _ => Resource r k data)
  | XDiscovered k ss qs data => takes k s s' ev (fun _ => Discovered k (Some (map (fun x => (fst x, snd x + 1)) ss, qs, data)))
  | _ => ds s [] s' ev
  end).
Proof.
  destruct m as [nk k code data|k x data|r k data|k ss qs data|k]; cbn -[sat leave take_dest].
  - unfold task_reply. destruct (first_task k s) as [t|]; [|now apply ds_none]. destruct (kind_eqb _ nk); [|now apply ds_none].
    assert (U : forall p k, count (consulted p k) (if code =? TPENOENT then unadvertise_service (k_sock t) (q_name (k_request t)) s else []) = 0%nat) by (intros; destruct (_ =? _); [apply unadvertise_service_consulted|reflexivity]).
    destruct nk; apply ds_none; auto; intros; cbn -[TPENOENT]; rewrite ?count_app, ?U; reflexivity.
  - unfold task_send. destruct (first_task k s) as [t|]; [|now apply ds_none]. destruct (q_kind _); try now apply ds_none. destruct x; now apply ds_none.
  - cbn. split; auto. destruct (find _ _); [|reflexivity]. exists []. split; auto.
  - cbn. split; auto. destruct (find _ _).
    + eexists. split; [rewrite app_assoc; reflexivity|]. intros; rewrite count_app. destruct ss, qs; reflexivity.
    + intros; rewrite !count_app. destruct ss, qs; reflexivity.
  - apply ds_bind; [|intro; apply send_ds]. apply ds_none; auto. intros; apply unadvertise_consulted.
Qed.
Lemma close_all_ds l s : sat (close_all l s) (ds s []).
Proof. revert s. induction l as [|[f b] l IH]; intro s; cbn -[sat]; [now apply ds_none|]. apply ds_bind; [|exact IH]. apply ds_bind; [apply lost_ds|]. intro; apply ds_none; auto. destruct b; reflexivity. Qed.
Lemma leave_all_ds l s : sat (leave_all l s) (ds s []).
Proof. revert s. induction l as [|n l IH]; intro s; cbn -[sat leave]; [now apply ds_none|]. apply ds_bind; [|exact IH]. apply ds_none; auto. intros; apply unadvertise_consulted. Qed.

(* what a step does to the destinations *)
Inductive dstep (i : input) (s s' : state) (ev : list effect) : Prop :=
| d_plain : ds s [] s' ev -> dstep i s s' ev
| d_ask : forall c ok m n, i = Inward c ok m -> by_ipc c s = Some n -> ds s (added m (c_sock n) s) s' ev -> dstep i s s' ev
| d_refused : forall c ok k p data n, i = Inward c ok (InDiscover k p data) -> by_ipc c s = Some n -> s' = s -> ev = [ToProcess p (Discovered k None)] ->
    s_down s || is_leaving (c_sock n) s = true -> dstep i s s' ev
| d_resource : forall c ok r k data, i = Outward c ok (XResource r k data) -> takes k s s' ev (fun _ => Resource r k data) -> dstep i s s' ev
| d_discovered : forall c ok k ss qs data, i = Outward c ok (XDiscovered k ss qs data) ->
    takes k s s' ev (fun _ => Discovered k (Some (map (fun x => (fst x, snd x + 1)) ss, qs, data))) -> dstep i s s' ev.
Lemma step_ds i s : sat (step i s) (dstep i s).
Proof.
  destruct i as [f c old|c ok m|c ok m|c|g|c| |]; cbn -[sat leave shutdown idle inward_step outward_step].
  - apply d_plain. now apply ds_none.
  - destruct (by_ipc c s) as [n|] eqn:B; [|apply d_plain; now apply ds_none]. apply (sat_weaken _ _ _ (inward_ds ok n m s)). intros s' ev [H|[k [p [data [-> [-> [-> H]]]]]]].
    + eapply d_ask; eauto.
    + eapply d_refused; eauto.
  - destruct (by_ipc c s) as [n|] eqn:B; [|apply d_plain; now apply ds_none]. apply (sat_weaken _ _ _ (outward_ds ok n m s)). intros s' ev H.
    destruct m; try (apply d_plain; exact H); [eapply d_resource; eauto|eapply d_discovered; eauto].
  - destruct (by_ipc c s) as [n|] eqn:B; [|apply d_plain; now apply ds_none]. apply (sat_weaken _ (ds s []) _); [|intros; now apply d_plain]. apply ds_bind; [apply lost_ds|]. intro; now apply ds_none.
  - apply d_plain. now apply ds_none.
  - destruct (by_ipc c s) as [n|] eqn:B; [|apply d_plain; now apply ds_none]. apply d_plain. apply ds_none; auto. intros; apply unadvertise_consulted.
  - unfold shutdown. apply (sat_weaken _ _ _ (leave_all_ds _ _)). intros; now apply d_plain.
  - apply (sat_weaken _ _ _ (close_all_ds _ _)). intros; now apply d_plain.
Qed.

(* ---- at most one answer to each question ---- *)
Definition mine (p : ipc) (k : corr) (d : dest) : bool := (d_ipc d =? p) && (d_corr d =? k).
Definition owed (p : ipc) (k : corr) (s : state) : nat := count (mine p k) (s_dests s).
Lemma count_filter {A} (f p : A -> bool) l : (count f (filter p l) <= count f l)%nat.
Proof. induction l as [|a l IH]; cbn; auto. destruct (p a); cbn; lia. Qed.
Lemma without_dest_count f k l d : find (fun d => d_corr d =? k) l = Some d -> count f l = ((if f d then 1 else 0) + count f (without_dest k l))%nat.
Proof.
  induction l as [|a l IH]; cbn; [discriminate|]. destruct (d_corr a =? k) eqn:E.
  - intro H; injection H as <-. reflexivity.
  - intro H. cbn. rewrite (IH H). lia.
Qed.
Lemma without_dest_none k l : find (fun d => d_corr d =? k) l = None -> without_dest k l = l.
Proof. induction l as [|a l IH]; cbn; auto. destruct (d_corr a =? k); [discriminate|]. intro H. now rewrite IH. Qed.
Lemma takes_owed k s s' ev m p k' : (forall d, d_corr d = k -> forall p k', consulted p k' (ToProcess (d_ipc d) (m d)) = (d_ipc d =? p) && (k =? k')) ->
  takes k s s' ev m -> (count (consulted p k') ev + owed p k' s' = owed p k' s)%nat.
Proof.
  intros M [E T]. unfold owed. rewrite E. destruct (find (fun d => d_corr d =? k) (s_dests s)) as [d|] eqn:F.
  - destruct T as [e1 [-> C]]. rewrite count_app, C, (without_dest_count _ k _ d F). cbn [count]. apply find_some in F as [_ F]. apply Z.eqb_eq in F. rewrite (M d F). unfold mine. rewrite F. destruct (_ && _); lia.
  - rewrite T, (without_dest_none _ _ F). reflexivity.
Qed.
Lemma dstep_owed i s s' ev p k : dstep i s s' ev -> (count (consulted p k) ev + owed p k s' <= owed p k s + (if consults p k i then 1 else 0))%nat.
Proof.
  assert (PL : forall L, ds s L s' ev -> (count (consulted p k) ev + owed p k s' <= owed p k s + count (mine p k) L)%nat).
  { intros L [[f E] C]. rewrite C. unfold owed. rewrite E. cbn. rewrite <- count_app. apply count_filter. }
  intros [H|c ok m n -> _ H|c ok k' p' data n -> _ -> -> _|c ok r k' data -> H|c ok k' ss qs data -> H].
  - specialize (PL _ H). cbn in PL. lia.
  - specialize (PL _ H). assert (X : (count (mine p k) (added m (c_sock n) s) <= if consults p k (Inward c ok m) then 1 else 0)%nat); [|lia].
    destruct m as [q|k' data|k'|r k' p' t data|k' p' data|data]; cbn; try lia.
    + destruct (existsb _ _); cbn; unfold mine; cbn; destruct ((p' =? p) && (k' =? k)); lia.
    + destruct (s_down s || is_leaving _ s); [cbn; destruct ((p' =? p) && (k' =? k)); lia|]. destruct (existsb _ _); cbn; unfold mine; cbn; destruct ((p' =? p) && (k' =? k)); lia.
  - cbn. destruct ((p' =? p) && (k' =? k)); lia.
  - pose proof (takes_owed k' s s' ev (fun _ => Resource r k' data) p k) as X. cbn in X. cbn. rewrite <- X; auto. lia.
  - pose proof (takes_owed k' s s' ev (fun _ => Discovered k' (Some (map (fun x => (fst x, snd x + 1)) ss, qs, data))) p k) as X. cbn in X. cbn. rewrite <- X; auto. lia.
Qed.
Lemma consulted_once h p k : happens h -> (consulted_count p k h <= consults_count p k h)%nat.
Proof.
  intros [s R]. assert (X : (consulted_count p k h + owed p k s <= consults_count p k h)%nat); [|lia].
  induction R as [|s h i s' ev R IH P E]; [cbn; lia|]. pose proof (dstep_owed _ _ _ _ p k (sat_done _ _ _ _ E (step_ds i s))) as D.
  unfold consulted_count, consults_count in *. rewrite effects_snoc, inputs_snoc, !count_app. cbn. lia.
Qed.

(* ---- every destination is of a question, at a connection that is open ---- *)
Lemma filter_without k (l : list dest) d : In d (without_dest k l) -> In d l.
Proof. apply without_dest_in. Qed.
Lemma dest_from s h : reach s h -> forall d, In d (s_dests s) -> exists n, In n (s_conns s) /\ c_sock n = d_sock d /\ consulted_at (c_ipc n) (d_ipc d) (d_corr d) h.
Proof.
  induction 1 as [|s h i s' ev R IH P E]; [cbn; tauto|]. intros d I. pose proof (reach_inv s h R) as [W _ OP _]. pose proof (reach_inv _ _ (reach_step _ _ _ _ _ R P E)) as [W' _ _ _].
  destruct (wf_dests _ W' d I) as [n' [J1 J2]].
  assert (MONO : forall c p k, consulted_at c p k h -> consulted_at c p k (h ++ [(i, ev)])) by (intros c p k [ok [m [A B]]]; exists ok, m; rewrite inputs_snoc; split; auto; apply in_or_app; auto).
  assert (X : exists n, In n (s_conns s) /\ c_sock n = d_sock d /\ consulted_at (c_ipc n) (d_ipc d) (d_corr d) (h ++ [(i, ev)])).
  { assert (OLD : In d (s_dests s) -> exists n, In n (s_conns s) /\ c_sock n = d_sock d /\ consulted_at (c_ipc n) (d_ipc d) (d_corr d) (h ++ [(i, ev)])).
    { intro Q. destruct (IH d Q) as [n [A [B C]]]. exists n. auto. }
    destruct (sat_done _ _ _ _ E (step_ds i s)) as [H|c ok m n EQ B H|c ok k p data n EQ _ -> _ _|c ok r k data _ H|c ok k ss qs data _ H].
    - destruct H as [[f F] _]. rewrite F, app_nil_r in I. apply filter_In in I as [I _]. auto.
    - destruct H as [[f F] _]. rewrite F in I. apply filter_In in I as [I _]. apply in_app_or in I as [I|I]; [auto|]. apply by_ipc_some in B as [B1 B2]. exists n. split; auto.
      assert (Y : d_sock d = c_sock n /\ consults (d_ipc d) (d_corr d) (Inward c ok m) = true).
      { destruct m; cbn in I; try contradiction.
        - destruct (existsb _ _); [destruct I|]. destruct I as [<- |[]]. cbn. now rewrite !Z.eqb_refl.
        - destruct (_ || _); [destruct I|]. destruct (existsb _ _); [destruct I|]. destruct I as [<- |[]]. cbn. now rewrite !Z.eqb_refl. }
      destruct Y as [Y1 Y2]. split; auto. rewrite B2. exists ok, m. split; auto. rewrite inputs_snoc, EQ. apply in_or_app; cbn; auto.
    - auto.
    - destruct H as [F _]. rewrite F in I. apply filter_without in I. auto.
    - destruct H as [F _]. rewrite F in I. apply filter_without in I. auto. }
  destruct X as [n [K1 [K2 K3]]]. exists n. split; auto. assert (n = n'); [|now subst].
  destruct (match i with Connected _ _ _ => true | _ => false end) eqn:NC.
  - destruct i as [f c old| | | | | | |]; try discriminate NC. cbn in E. injection E as <- <-. apply (same_sock _ n n' (wf_sock _ W')); cbn; auto; [apply in_or_app; auto|congruence].
  - assert (N : forall f c old, i <> Connected f c old) by (intros; intros ->; discriminate). pose proof (sat_done _ _ _ _ E (step_good i s W N)) as [_ [[ff G] _]].
    apply (same_sock s); [apply W|auto| |congruence]. rewrite G in J1. now apply filter_In in J1 as [J1 _].
Qed.
Lemma count0_in p k ev e : (forall p k, count (consulted p k) ev = 0%nat) -> In e ev -> consulted p k e = false.
Proof. intros C I. apply (count_zero_inv _ _ _ (C p k) I). Qed.
Lemma takes_in k s s' ev m p a k0 : takes k s s' ev m -> In (ToProcess p a) ev -> consulted p k0 (ToProcess p a) = true ->
  exists d, find (fun d => d_corr d =? k) (s_dests s) = Some d /\ p = d_ipc d /\ a = m d.
Proof.
  intros [_ T] I C. destruct (find (fun d => d_corr d =? k) (s_dests s)) as [d|].
  - destruct T as [e1 [-> T]]. apply in_app_or in I as [I|[I|[]]]; [rewrite (count0_in p k0 e1 _ T I) in C; discriminate|]. injection I as <- <-. eauto.
  - rewrite (count0_in p k0 ev _ T I) in C; discriminate.
Qed.
Lemma consult_cause h i ev p k a : happens (h ++ [(i, ev)]) -> In (ToProcess p a) ev -> consulted p k (ToProcess p a) = true ->
  match a with
  | Resource r _ data => exists c ok, i = Outward c ok (XResource r k data) /\ exists c', open c' h /\ consulted_at c' p k h
  | Discovered _ (Some (services, queues, data)) => exists c ok ss, i = Outward c ok (XDiscovered k ss queues data) /\
      services = map (fun x => (fst x, snd x + 1)) ss /\ exists c', open c' h /\ consulted_at c' p k h
  | Discovered _ None => exists c ok data, i = Inward c ok (InDiscover k p data) /\ (In Shutdown (inputs h) \/ left c h)
  | _ => False
  end.
Proof.
  intros H I C. destruct (happens_snoc _ _ _ H) as [s [s' [R [P [E R']]]]]. pose proof (reach_inv s h R) as [W _ OP _].
  assert (DF : forall k0 d, find (fun d => d_corr d =? k0) (s_dests s) = Some d -> exists c', open c' h /\ consulted_at c' (d_ipc d) k0 h).
  { intros k0 d F. apply find_some in F as [F1 F2]. apply Z.eqb_eq in F2. destruct (dest_from s h R d F1) as [n [A [B D]]]. exists (c_ipc n). rewrite <- F2. split; auto. apply OP. now apply in_map. }
  destruct (sat_done _ _ _ _ E (step_ds i s)) as [[_ Z0]|c ok m n EQ B [_ Z0]|c ok k0 p0 data n EQ B -> -> L|c ok r k0 data EQ T|c ok k0 ss qs data EQ T].
  - rewrite (count0_in p k ev _ Z0 I) in C. discriminate.
  - rewrite (count0_in p k ev _ Z0 I) in C. discriminate.
  - destruct I as [I|[]]. injection I as <- <-. cbn in C. apply andb_true_iff in C as [_ C]. apply Z.eqb_eq in C. subst k0. exists c, ok, data. split; auto.
    apply by_ipc_some in B as [B1 B2]. apply orb_true_iff in L as [L|L]; [left; now apply (down_iff s h R)|]. right. unfold is_leaving in L. apply existsb_exists in L as [l [L1 L2]]. apply Z.eqb_eq in L2.
    destruct (leaving_left s h R l L1) as [m [M1 [M2 M3]]]. rewrite <- B2. rewrite (same_sock s n m); auto; [apply W|rewrite M2; symmetry; exact L2].
  - destruct (takes_in _ _ _ _ _ _ _ _ T I C) as [d [F [-> ->]]]. cbn in C. apply andb_true_iff in C as [_ C]. apply Z.eqb_eq in C. subst k0. exists c, ok. split; auto.
  - destruct (takes_in _ _ _ _ _ _ _ _ T I C) as [d [F [-> ->]]]. cbn in C. apply andb_true_iff in C as [_ C]. apply Z.eqb_eq in C. subst k0. exists c, ok, ss. split; auto.
Qed.

(* ---- the answer comes back to the one that asked ---- *)
Lemma find_app {A} (f : A -> bool) l1 l2 x : find f l1 = Some x -> find f (l1 ++ l2) = Some x.
Proof. induction l1 as [|a l1 IH]; cbn; [discriminate|]. destruct (f a); auto. Qed.
Lemma find_filter {A} (f p : A -> bool) l x : find f l = Some x -> p x = true -> find f (filter p l) = Some x.
Proof.
  induction l as [|a l IH]; cbn; [discriminate|]. destruct (f a) eqn:F.
  - intro H; injection H as ->. intro Q. rewrite Q. cbn. now rewrite F.
  - intros H Q. destruct (p a); cbn; [rewrite F|]; auto.
Qed.
Lemma find_without k k' l (d : dest) : k <> k' -> find (fun d => d_corr d =? k) l = Some d -> find (fun d => d_corr d =? k) (without_dest k' l) = Some d.
Proof.
  intros N. induction l as [|a l IH]; cbn; [discriminate|]. destruct (d_corr a =? k) eqn:E1.
  - intro H; injection H as <-. apply Z.eqb_eq in E1. destruct (Z.eqb_spec (d_corr a) k'); [congruence|]. cbn. apply Z.eqb_eq in E1. now rewrite E1.
  - intro H. destruct (d_corr a =? k'); auto. cbn. rewrite E1. auto.
Qed.
Lemma in_dests_find k l d : In d l -> d_corr d = k -> exists d', find (fun d => d_corr d =? k) l = Some d' /\ In d' l /\ d_corr d' = k.
Proof.
  intros I E. destruct (find (fun d => d_corr d =? k) l) as [d'|] eqn:F.
  - exists d'. split; auto. apply find_some in F as [F1 F2]. split; auto. now apply Z.eqb_eq.
  - exfalso. pose proof (find_none _ _ F d I) as H. cbn in H. apply Z.eqb_neq in H. contradiction.
Qed.
(* if it's there and the connection still is, it stays until there is an answer *)
Definition kp (s s' : state) : Prop := sub s s' /\ forall d, In d (s_dests s) -> live (d_sock d) s' -> In d (s_dests s').
Lemma kp_trans s s1 s2 : kp s s1 -> kp s1 s2 -> kp s s2.
Proof. intros [A1 B1] [A2 B2]. split; [intros n I; auto|]. intros d I L. apply B2; auto. apply B1; auto. destruct L as [n [L1 L2]]. exists n. split; auto. Qed.
Lemma kp_same s s' : s_conns s' = s_conns s -> s_dests s' = s_dests s -> kp s s'.
Proof. intros A B. split; [intros n; now rewrite A|]. intros d. now rewrite B. Qed.
Lemma kp_bind s r f : sat r (fun s' _ => kp s s') -> (forall s1, sat (f s1) (fun s' _ => kp s1 s')) -> sat (bind r f) (fun s' _ => kp s s').
Proof. intros A B. apply (sat_bind _ _ _ _ A). intros s1 e1 H. apply (sat_weaken _ _ _ (B s1)). intros s2 e2 H2. eapply kp_trans; eauto. Qed.
Lemma lost_kp f s : sat (lost f s) (fun s' _ => kp s s').
Proof.
  unfold lost. destruct (by_sock f s); [|exact I]. split; cbn.
  - intros n J. now apply filter_In in J as [J _].
  - intros d J [n [L1 L2]]. apply filter_In in L1 as [_ L1]. apply filter_In. split; auto. now rewrite <- L2.
Qed.
Lemma send_kp ok f m s : sat (send ok f m s) (fun s' _ => kp s s').
Proof. unfold send. destruct (by_sock f s); [|now apply kp_same]. destruct ok; [now apply kp_same|]. apply kp_bind; [apply lost_kp|]. intro; now apply kp_same. Qed.
Lemma involve_kp t f s : sat (involve t f s) (fun s' _ => kp s s').
Proof. unfold involve. destruct t as [[g b]|]; [|now apply kp_same]. destruct (associate _ _ _) as [first l]. destruct first; [destruct (by_sock f s)|]; now apply kp_same. Qed.
Lemma add_dest_kp k p f s : kp s (add_dest k p f s).
Proof. unfold add_dest. destruct (existsb _ _); [now apply kp_same|]. split; [intros n; auto|]. cbn. intros d I _. apply in_or_app; auto. Qed.
Lemma inward_kp ok n m s : sat (inward_step ok n m s) (fun s' _ => kp s s').
Proof.
  assert (AT : forall q s1, sat (involve (q_trid q) (c_sock n) (add_task (c_sock n) q s1)) (fun s' _ => kp s1 s')).
  { intros q s1. apply (sat_weaken _ _ _ (involve_kp _ _ _)). intros s2 e. apply (kp_trans s1). now apply kp_same. }
  assert (AD : forall k p w, sat (send ok (c_sock n) w (add_dest k p (c_sock n) s)) (fun s' _ => kp s s')).
  { intros k p w. apply (sat_weaken _ _ _ (send_kp ok _ _ _)). intros s2 e. apply kp_trans. apply add_dest_kp. }
  destruct m as [q|k data|k|r k p t data|k p data|data]; cbn -[sat].
  - destruct (q_kind q).
    + unfold call_request. destruct (has_corr _ _); [now apply kp_same|]. destruct (c_old n).
      * apply kp_bind; [apply AT|]. intro; apply send_kp.
      * pose proof (send_kp ok (c_sock n) (WRequest false q) s) as H. destruct (send ok (c_sock n) (WRequest false q) s); auto. destruct ok; [|exact I]. apply kp_bind; auto.
    + unfold queue_request. apply kp_bind; [apply send_kp|]. intro; apply AT.
    + unfold queue_request. apply kp_bind; [apply send_kp|]. intro; apply AT.
    + unfold connect_request. apply kp_bind; [apply AT|]. intro; apply send_kp.
  - apply send_kp.
  - unfold disconnect_conversation. destruct (first_task k s) as [t|]; [|now apply kp_same]. destruct (q_kind (k_request t)); try now apply kp_same.
    destruct (by_sock (k_sock t) s) eqn:B; [|now apply kp_same]. unfold send. rewrite B. destruct ok; [|destruct (bind _ _); exact I]. now apply kp_same.
  - apply AD.
  - destruct (s_down s); [now apply kp_same|]. destruct (is_leaving _ _); [now apply kp_same|]. apply AD.
  - destruct (s_down s); [now apply kp_same|]. destruct (is_leaving _ _); [now apply kp_same|]. apply send_kp.
Qed.
Lemma close_all_kp l s : sat (close_all l s) (fun s' _ => kp s s').
Proof. revert s. induction l as [|[f b] l IH]; intro s; cbn -[sat]; [now apply kp_same|]. apply kp_bind; [|exact IH]. apply kp_bind; [apply lost_kp|]. intro; now apply kp_same. Qed.
Lemma in_without k l d : In d l -> d_corr d <> k -> In d (without_dest k l).
Proof.
  induction l as [|a l IH]; cbn; [tauto|]. intros [E|I] N.
  - subst a. destruct (Z.eqb_spec (d_corr d) k); [contradiction|cbn; auto].
  - destruct (d_corr a =? k); cbn; auto.
Qed.
Lemma outward_kp ok n m s : sat (outward_step ok n m s) (fun s' _ => sub s s' /\ forall d, In d (s_dests s) -> live (d_sock d) s' -> consult_reply (d_corr d) (Outward 0 ok m) = false -> In d (s_dests s')).
Proof.
  assert (K : forall r, sat r (fun s' _ => kp s s') -> sat r (fun s' _ => sub s s' /\ forall d, In d (s_dests s) -> live (d_sock d) s' -> consult_reply (d_corr d) (Outward 0 ok m) = false -> In d (s_dests s'))).
  { intros r H. apply (sat_weaken _ _ _ H). intros s' _ [A B]. split; auto. }
  destruct m as [nk k code data|k x data|r k data|k ss qs data|k]; cbn -[sat leave take_dest consult_reply].
  - apply K. unfold task_reply. destruct (first_task k s) as [t|]; [|now apply kp_same]. destruct (kind_eqb _ nk); [|now apply kp_same]. destruct nk; now apply kp_same.
  - apply K. unfold task_send. destruct (first_task k s) as [t|]; [|now apply kp_same]. destruct (q_kind _); try now apply kp_same. destruct x; now apply kp_same.
  - cbn. split; [intros x I; exact I|]. intros d I _ C. apply in_without; auto. apply Z.eqb_neq in C. auto.
  - cbn. split; [intros x I; exact I|]. intros d I _ C. apply in_without; auto. apply Z.eqb_neq in C. auto.
  - apply K. apply kp_bind; [now apply kp_same|intro; apply send_kp].
Qed.
Lemma step_kp i s : sat (step i s) (fun s' _ => forall d, In d (s_dests s) -> live (d_sock d) s' -> consult_reply (d_corr d) i = false -> In d (s_dests s')).
Proof.
  assert (K : forall r i, sat r (fun s' _ => kp s s') -> sat r (fun s' _ => forall d, In d (s_dests s) -> live (d_sock d) s' -> consult_reply (d_corr d) i = false -> In d (s_dests s'))).
  { intros r i' H. apply (sat_weaken _ _ _ H). intros s' _ [A B]. auto. }
  destruct i as [f c old|c ok m|c ok m|c|g|c| |]; cbn -[sat leave shutdown idle inward_step outward_step consult_reply].
  - cbn. auto.
  - apply K. destruct (by_ipc c s) as [n|]; [apply inward_kp|now apply kp_same].
  - destruct (by_ipc c s) as [n|]; [|apply K; now apply kp_same]. apply (sat_weaken _ _ _ (outward_kp ok n m s)). intros s' _ [_ H] d A B C. apply H; auto.
  - apply K. destruct (by_ipc c s) as [n|]; [|now apply kp_same]. apply kp_bind; [apply lost_kp|]. intro; now apply kp_same.
  - cbn; auto.
  - apply K. destruct (by_ipc c s) as [n|]; now apply kp_same.
  - unfold shutdown. pose proof (leave_all_kept (s_conns s) (State (s_conns s) (s_tasks s) (s_dests s) (s_assoc s) (s_leaving s) true)) as H. destruct (leave_all _ _); auto. cbn in *. destruct H as [_ [_ [_ ->]]]. auto.
  - apply K. apply close_all_kp.
Qed.
Lemma dest_kept s1 h1 h2 s2 n k p : reach s1 h1 -> reach s2 (h1 ++ h2) -> In n (s_conns s1) -> In (Dest k p (c_sock n)) (s_dests s1) ->
  (forall i ev, In (i, ev) h2 -> consult_reply k i = false) -> In (c_ipc n) (ipcs s2) -> In n (s_conns s2) /\ In (Dest k p (c_sock n)) (s_dests s2).
Proof.
  intros R1 R2 I D. revert s2 R2. induction h2 as [|[i ev] h2 IH] using rev_ind; intros s2 R2 C L.
  - rewrite app_nil_r in R2. assert (s2 = s1) as ->; [|auto]. clear - R1 R2. revert s2 R2. induction R1 as [|s h i s' ev R IH P E]; intros s2 R2.
    + inversion R2; auto. destruct h; discriminate.
    + apply reach_snoc in R2 as [s0 [R0 [_ E0]]]. rewrite (IH s0 R0) in E0. congruence.
  - rewrite app_assoc in R2. pose proof (reach_inv _ _ R2) as [W2 _ OP2 _]. apply reach_snoc in R2 as [s [R [P E]]]. pose proof (reach_inv _ _ R) as [W _ OP _].
    assert (L0 : In (c_ipc n) (ipcs s)).
    { apply OP. apply OP2 in L as [L1 L2]. pose proof (reach_inv _ _ R1) as [_ _ OP1 _]. assert (Q : In (c_ipc n) (ipcs s1)) by now apply in_map. apply OP1 in Q as [Q _].
      split; [destruct Q as [f [o Q]]; exists f, o; rewrite inputs_app; apply in_or_app; auto|]. intro G. apply L2. unfold gone in *. rewrite effects_snoc. apply in_or_app; auto. }
    destruct (IH s R) as [K1 K2]; [intros j e J; apply (C j e), in_or_app; auto|auto|].
    assert (N2 : In n (s_conns s2)).
    { destruct (match i with Connected _ _ _ => true | _ => false end) eqn:NC.
      - destruct i as [f c old| | | | | | |]; try discriminate NC. cbn in E. injection E as <- <-. cbn. apply in_or_app; auto.
      - assert (N : forall f c old, i <> Connected f c old) by (intros; intros ->; discriminate). pose proof (sat_done _ _ _ _ E (step_good i s W N)) as [_ [[ff G] _]].
        unfold ipcs in L. apply in_map_iff in L as [m [M1 M2]]. assert (m = n); [|now subst]. apply (same_ipc s); auto; [apply W|]. rewrite G in M2. now apply filter_In in M2 as [M2 _]. }
    split; auto. apply (sat_done _ _ _ _ E (step_kp i s)); auto; [exists n; auto|]. cbn. apply (C i ev), in_or_app; cbn; auto.
Qed.
Definition asks_at (c : ipc) (p : ipc) (k : corr) (i : input) : Prop := exists m, i = Inward c true m /\ consults p k i = true.
Lemma existsb_none k s h : reach s h -> (forall i ev, In (i, ev) h -> consult_corr k i = false) -> existsb (fun d => d_corr d =? k) (s_dests s) = false.
Proof.
  intros R C. destruct (existsb _ _) eqn:E; auto. apply existsb_exists in E as [d [I E]]. apply Z.eqb_eq in E. destruct (dest_from s h R d I) as [n [_ [_ [ok [m [A B]]]]]].
  apply inputs_in in A as [ev A]. specialize (C _ _ A). rewrite E in B. destruct m; cbn in B, C; try discriminate; apply andb_true_iff in B as [_ B]; congruence.
Qed.
Lemma answer_back h1 c p k m ev h2 c2 ok m2 ev2 :
  happens (h1 ++ (Inward c true m, ev) :: h2 ++ [(Outward c2 ok m2, ev2)]) ->
  consults p k (Inward c true m) = true -> ~ In Shutdown (inputs h1) -> ~ left c h1 ->
  (forall i e, In (i, e) (h1 ++ h2) -> consult_corr k i = false) -> (forall i e, In (i, e) h2 -> consult_reply k i = false) ->
  open c (h1 ++ (Inward c true m, ev) :: h2) ->
  match m2 with
  | XResource r k' data => k' = k -> In (ToProcess p (Resource r k data)) ev2
  | XDiscovered k' ss qs data => k' = k -> In (ToProcess p (Discovered k (Some (map (fun x => (fst x, snd x + 1)) ss, qs, data)))) ev2
  | _ => True
  end.
Proof.
  intros H A NS NL C1 C2 OPEN.
  assert (HH : h1 ++ (Inward c true m, ev) :: h2 ++ [(Outward c2 ok m2, ev2)] = ((h1 ++ [(Inward c true m, ev)]) ++ h2) ++ [(Outward c2 ok m2, ev2)]) by (rewrite <- !app_assoc; reflexivity).
  rewrite HH in H. destruct (happens_snoc _ _ _ H) as [s3 [s4 [R3 [P3 [E3 R4]]]]].
  destruct (happens_snoc h1 (Inward c true m) ev) as [s0 [s1 [R0 [P0 [E0 R1]]]]]; [apply (happens_prefix _ h2); exists s3; auto|].
  pose proof (reach_inv _ _ R0) as [W0 _ OP0 _]. pose proof (reach_inv _ _ R3) as [W3 _ OP3 _]. pose proof (reach_inv _ _ R1) as [W1 _ OP1 _].
  cbn in P0. destruct (by_ipc_in c s0 P0) as [n B]. apply by_ipc_some in B as B'. destruct B' as [B1 B2].
  assert (X : existsb (fun d => d_corr d =? k) (s_dests s0) = false) by (apply (existsb_none k s0 h1 R0); intros i e J; apply (C1 i e), in_or_app; auto).
  assert (ND : s_down s0 = false). { destruct (s_down s0) eqn:D; auto. exfalso. apply NS. now apply (down_iff s0 h1 R0). }
  assert (NLV : is_leaving (c_sock n) s0 = false).
  { destruct (is_leaving (c_sock n) s0) eqn:D; auto. exfalso. apply NL. unfold is_leaving in D. apply existsb_exists in D as [l [D1 D2]]. apply Z.eqb_eq in D2.
    destruct (leaving_left s0 h1 R0 l D1) as [n' [M1 [M2 M3]]]. rewrite <- B2. rewrite (same_sock s0 n n'); auto; [apply W0|rewrite M2; symmetry; exact D2]. }
  assert (AD : forall w, sat (send true (c_sock n) w (add_dest k p (c_sock n) s0)) (fun s' _ => In n (s_conns s') /\ In (Dest k p (c_sock n)) (s_dests s'))).
  { intros w. unfold send. rewrite (by_sock_in _ n); [|rewrite add_dest_conns; apply W0|rewrite add_dest_conns; auto]. cbn. rewrite add_dest_conns. split; auto. unfold add_dest. rewrite X. cbn. apply in_or_app; cbn; auto. }
  assert (Y : In n (s_conns s1) /\ In (Dest k p (c_sock n)) (s_dests s1)).
  { cbn -[inward_step] in E0. rewrite B in E0. destruct m as [q|k' data|k'|r k' p' t data|k' p' data|data]; cbn in A; try discriminate; apply andb_true_iff in A as [A1 A2]; apply Z.eqb_eq in A1; apply Z.eqb_eq in A2; subst k' p'; cbn in E0.
    - apply (sat_done _ _ _ _ E0 (AD _)).
    - rewrite ND, NLV in E0. apply (sat_done _ _ _ _ E0 (AD _)). }
  destruct Y as [Y1 Y2].
  assert (Z0 : In n (s_conns s3) /\ In (Dest k p (c_sock n)) (s_dests s3)).
  { apply (dest_kept s1 _ h2 s3 n k p R1 R3); auto. apply OP3. rewrite B2. rewrite <- app_assoc. exact OPEN. }
  destruct Z0 as [Z1 Z2].
  destruct (in_dests_find k (s_dests s3) _ Z2 eq_refl) as [d [F [D1 D2]]].
  assert (DP : d_ipc d = p).
  { destruct (dest_from s3 _ R3 d D1) as [n' [_ [_ [ok' [m' [Q1 Q2]]]]]]. rewrite D2 in Q2.
    assert (Q3 : consult_corr k (Inward (c_ipc n') ok' m') = true) by (destruct m'; cbn in Q2 |- *; try discriminate; apply andb_true_iff in Q2 as [_ Q2]; exact Q2).
    rewrite !inputs_app in Q1. apply in_app_or in Q1 as [Q1|Q1]; [apply in_app_or in Q1 as [Q1|Q1]|].
    - apply inputs_in in Q1 as [e Q1]. rewrite (C1 _ e) in Q3; [discriminate|apply in_or_app; auto].
    - cbn in Q1. destruct Q1 as [Q1|[]]. rewrite <- Q1 in Q2. destruct m; cbn in A, Q2; try discriminate; apply andb_true_iff in A as [A _]; apply andb_true_iff in Q2 as [Q2 _]; apply Z.eqb_eq in A; apply Z.eqb_eq in Q2; congruence.
    - apply inputs_in in Q1 as [e Q1]. rewrite (C1 _ e) in Q3; [discriminate|apply in_or_app; auto]. }
  cbn in P3. destruct (by_ipc_in c2 s3 P3) as [n2 B3]. cbn -[outward_step] in E3. rewrite B3 in E3. destruct m2 as [nk k' code data|k' x data|r k' data|k' ss qs data|k']; auto; intros ->; cbn in E3; rewrite F, DP in E3; injection E3 as _ <-.
  - cbn; auto.
  - rewrite !in_app_iff. cbn; auto.
Qed.

