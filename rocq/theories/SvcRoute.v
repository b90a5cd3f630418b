(* Where lookups are routed, in terms of what was advertised. *)
From Coq Require Import ZArith List Bool Lia.
From Verif Require Import FanModel SvcModel SvcSpec SvcLemmas SvcInv SvcStep SvcRes SvcCount SvcDir.
Import ListNotations.
Local Open Scope Z_scope.

(* ---------------------------------------------------------------- the order of concurrent instances *)
Definition okv (v : svc) : Prop := csorted (v_conc v) /\ v_prio v = v_prio (prioritize v).
Lemma cc_lt_le a b : cc_lt a b = true -> cc_le a b.
Proof.
  unfold cc_lt, cc_le. intros H. apply orb_prop in H. destruct H as [H|H]; [apply Z.ltb_lt in H; auto|]. apply andb_prop in H. destruct H as [H1 H2].
  apply Z.eqb_eq in H1. apply Z.ltb_lt in H2. lia.
Qed.
Lemma cc_nlt_le a b : cc_lt a b = false -> cc_le b a.
Proof.
  unfold cc_lt, cc_le. intros H. apply orb_false_elim in H. destruct H as [H1 H2]. apply Z.ltb_ge in H1. destruct (Z.eqb_spec (cc_order a) (cc_order b)) as [E|E].
  - cbn in H2. apply Z.ltb_ge in H2. lia.
  - lia.
Qed.
Lemma cc_le_trans a b c : cc_le a b -> cc_le b c -> cc_le a c.
Proof. unfold cc_le. lia. Qed.
Lemma cc_insert_sorted x l : csorted l -> csorted (cc_insert x l).
Proof.
  induction l as [|y l IH]; intros H; cbn [cc_insert]; [constructor; [constructor|constructor]|]. inversion H as [|? ? Hl Hf]; subst.
  destruct (cc_lt x y) eqn:E.
  - constructor; [exact H|]. constructor; [apply cc_lt_le; exact E|]. eapply Forall_impl; [|exact Hf]. intros z Hz. eapply cc_le_trans; [apply cc_lt_le; exact E|exact Hz].
  - constructor; [apply IH; exact Hl|]. apply Forall_forall. intros z Hz. apply cc_insert_in in Hz. destruct Hz as [-> | Hz]; [apply cc_nlt_le; exact E|].
    rewrite Forall_forall in Hf. auto.
Qed.
Lemma cc_filter_sorted f l : csorted l -> csorted (filter f l).
Proof.
  induction 1 as [|x l Hl IH Hf]; cbn [filter]; [constructor|]. destruct (f x); [|exact IH]. constructor; [exact IH|].
  apply Forall_forall. intros z Hz. apply filter_In in Hz. rewrite Forall_forall in Hf. apply Hf. tauto.
Qed.
Lemma cc_sort_sorted l : csorted (cc_sort l).
Proof.
  unfold cc_sort. assert (H : forall a, csorted a -> csorted (fold_left (fun acc x => cc_insert x acc) l a)).
  { induction l as [|x l IH]; intros a Ha; cbn [fold_left]; [exact Ha|]. apply IH, cc_insert_sorted, Ha. }
  apply H. constructor.
Qed.
Lemma okv_conc v : csorted (v_conc v) -> okv (prioritize v).
Proof. intros H. split; [exact H|]. destruct v as [n t f sq cc p]. reflexivity. Qed.
Lemma okv_same v v' : v_conc v' = v_conc v -> v_prio v' = v_prio v -> okv v -> okv v'.
Proof. intros H1 H2 [A B]. split; [rewrite H1; exact A|]. rewrite H2, B. unfold prioritize. cbn [v_prio]. rewrite H1. reflexivity. Qed.
Lemma okv_add i v : okv v -> okv (v_add_seq i v).
Proof. destruct (v_add_seq_conc i v) as (A & _ & B & _). apply okv_same; assumption. Qed.
Lemma okv_del i v : okv v -> okv (v_del_seq i v). Proof. apply okv_same; reflexivity. Qed.
Lemma okv_add_conc i o h v : okv v -> okv (v_add_conc i o h v).
Proof. intros H. unfold v_add_conc. destruct (knows_conc i v); [exact H|]. apply okv_conc. apply cc_insert_sorted, H. Qed.
Lemma okv_del_conc i v : okv v -> okv (v_del_conc i v). Proof. intros H. apply okv_conc. apply cc_filter_sorted, H. Qed.
Lemma okv_update v : okv (update_prioritized v). Proof. apply okv_conc. apply cc_sort_sorted. Qed.

Lemma prio_len_in f l : forall c, In c (firstn (prio_len f l) l) -> cc_lt f c = false.
Proof.
  induction l as [|x l IH]; intros c H; cbn [prio_len] in H; [destruct H|]. destruct (cc_lt f x) eqn:E; [destruct H|]. cbn [firstn] in H. destruct H as [<-|H]; auto.
Qed.
Lemma cc_lt_irrefl c : cc_lt c c = false.
Proof. unfold cc_lt. rewrite !Z.ltb_irrefl, Z.eqb_refl. reflexivity. Qed.
(* the ones that can be picked are minimal, and there is one *)
Lemma prioritized_min v c : okv v -> In c (prioritized v) -> forall c', In c' (v_conc v) -> cc_le c c'.
Proof.
  intros [Hs Hp] Hc c' Hc'. unfold prioritized in Hc. rewrite Hp in Hc. unfold prioritize in Hc. cbn [v_prio] in Hc. destruct (v_conc v) as [|f l]; [destruct Hc'|].
  apply prio_len_in in Hc. apply cc_nlt_le in Hc. eapply cc_le_trans; [exact Hc|]. inversion Hs as [|? ? Hl Hf]; subst. destruct Hc' as [<-|Hc']; [unfold cc_le; lia|].
  rewrite Forall_forall in Hf. auto.
Qed.
Lemma prioritized_none v : okv v -> prioritized v = [] -> v_conc v = [].
Proof.
  intros [Hs Hp] Hc. unfold prioritized in Hc. rewrite Hp in Hc. unfold prioritize in Hc. cbn [v_prio] in Hc. destruct (v_conc v) as [|f l]; [reflexivity|].
  cbn [prio_len] in Hc. rewrite cc_lt_irrefl in Hc. discriminate.
Qed.

Section Route.
Variable cfg : config.
Variable U : Z -> Prop.
Variable owner : Z -> Z.
Hypothesis HU : unambiguous cfg U.

Record dir (b : bool) (A : list (handle * Z)) (O : list (handle * (Z * Z * Z))) (s : state) : Prop := {
  dd_n : dn cfg U s;
  dd_a1 : forall y, AS s y -> In y A;
  dd_a2 : b = true -> forall y, In y A -> AS s y;
  dd_o : forall y, OS s y <-> In y O;
  dd_seq : forall i q, get (s_seq s) i = Some q -> h_pid (q_proc q) = owner (h_ipc (q_proc q));
  dd_con : forall i q, get (s_con s) i = Some q -> h_pid (ci_proc q) = owner (h_ipc (ci_proc q));
  dd_ord : forall vi v, get (s_svc s) vi = Some v -> okv v }.

Lemma dir_same b A O s s' : same_dir s s' -> dir b A O s -> dir b A O s'.
Proof.
  intros H D. destruct D as [D1 D2 D3 D4 D5 D6 D7]. split.
  - eapply dn_same; [|exact D1]. apply same_names_eq; [apply (sd_svc _ _ H)|apply (sd_names _ _ H)].
  - intros y Hy. apply D2. apply (AS_same _ _ y H). exact Hy.
  - intros Hb y Hy. apply (AS_same _ _ y H). auto.
  - intros y. rewrite (OS_same _ _ y H). apply D4.
  - intros i q Hq. destruct (same_get _ _ _ _ H Hq) as (q0 & Hq0 & E & _). rewrite <- E. eauto.
  - rewrite (sd_con _ _ H). exact D6.
  - rewrite (sd_svc _ _ H). exact D7.
Qed.

(* an effect is justified by what is advertised *)
Definition routed (b : bool) (A : list (handle * Z)) (O : list (handle * (Z * Z * Z))) (x : out) : Prop :=
  match x with
  | O_idle r (D_seq h) _ => exists o, In (r_name r) (names cfg o) /\ In (h, o) A
  | O_idle r (D_con h) _ => r_req r <> External /\ exists o a k, In (r_name r) (names cfg o) /\ In (h, (o, a, k)) O /\
      (forall h' a' k', In (h', (o, a', k')) O -> a < a' \/ (a = a' /\ k <= k')) /\ (b = true -> forall h', ~ In (h', o) A)
  | O_idle r (D_forward h) _ => h = g_forward cfg /\ r_sem r = NoReply
  | O_absent r => forall o, U o -> In (r_name r) (names cfg o) ->
      (b = true -> forall h, ~ In (h, o) A) /\ (r_req r <> External -> forall h a k, ~ In (h, (o, a, k)) O)
  | _ => True
  end.

Lemma no_seq_AS b A O s vi v : dir b A O s -> get (s_svc s) vi = Some v -> has_seq v = false -> b = true -> forall h, ~ In (h, v_name v) A.
Proof.
  intros D Hv Hs Hb h Hin. destruct (dd_a2 _ _ _ _ D Hb _ Hin) as (k & w & i & q & B & C & E & _). cbn [snd] in C.
  assert (k = vi) by (apply (n_uniq _ _ _ (dd_n _ _ _ _ D) k vi w v); auto). subst k. assert (w = v) by congruence. subst w. eapply has_seq_false; eauto.
Qed.
Lemma unserved_routed b A O s r : dir b A O s -> unserved s r -> routed b A O (O_absent r).
Proof.
  intros D H o Hu Hin.
  assert (Hcase : forall k v, get (s_svc s) k = Some v -> v_name v = o -> has_seq v = false /\ (r_req r <> External -> v_conc v = [])).
  { intros k v Hv E. assert (Hl : lookup_name (r_name r) s = Some k) by (apply (n_all _ _ _ (dd_n _ _ _ _ D) k v); [exact Hv|rewrite E; exact Hin]).
    destruct (H k v Hl Hv) as [H1 H2]. split; [exact H1|]. intros Hne. apply prioritized_none; [apply (dd_ord _ _ _ _ D k v Hv)|auto]. }
  split.
  - intros Hb h HA. destruct (dd_a2 _ _ _ _ D Hb _ HA) as (k & v & i & q & B & C & E & _). destruct (Hcase k v B C) as [H1 _]. eapply has_seq_false; eauto.
  - intros Hne h a k HO. apply (dd_o _ _ _ _ D) in HO. destruct HO as (vi & v & i & c & B & C & E & _). destruct (Hcase vi v B C) as [_ H2]. rewrite (H2 Hne) in E. destruct E.
Qed.

Definition rout (b : bool) (A : list (handle * Z)) (O : list (handle * (Z * Z * Z))) (x : state * list out) : Prop := dir b A O (fst x) /\ Forall (routed b A O) (snd x).
Lemma rout_nil b A O s : dir b A O s -> rout b A O (s, []).
Proof. intros H. split; [exact H|constructor]. Qed.
Lemma rout_then b A O x f : rout b A O x -> (dir b A O (fst x) -> rout b A O (f (fst x))) -> rout b A O (then_ x f).
Proof. intros [H1 H2] Hf. destruct (Hf H1) as [H3 H4]. split; [rewrite then_fst; exact H3|]. rewrite then_snd. apply Forall_app. auto. Qed.
Lemma dir_lookup_name b A O s n vi v : dir b A O s -> lookup_name n s = Some vi -> get (s_svc s) vi = Some v -> In n (names cfg (v_name v)).
Proof. intros D Hn Hv. destruct (n_some _ _ _ (dd_n _ _ _ _ D) _ _ Hn) as (w & Hw & Hin). congruence. Qed.

Lemma rout_send b A O e r d dl s : dir b A O s -> routed b A O (O_idle r d dl) -> rout b A O (send_reply e r d dl s).
Proof.
  intros D H. unfold send_reply. apply rout_then; [split; [exact D|constructor; [exact H|constructor]]|]. intros _. cbn [fst]. destruct (e_gone _ _); [|apply rout_nil; exact D].
  split; [eapply dir_same; [apply same_undeliverable|exact D]|]. constructor; [exact I|constructor].
Qed.

Lemma rout_lookup b A O e r s : inv s -> dir b A O s -> rout b A O (lookup cfg e r s).
Proof.
  intros Hi D. pose proof (lookup_looked cfg e r s Hi) as L. destruct (lookup cfg e r s) as [s' o]. cbn [fst snd] in L. destruct L.
  - split; [exact D|]. constructor; [eapply unserved_routed; eauto|constructor].
  - split; [eapply dir_same; [apply same_pend|exact D]|]. apply Forall_app. split; [destruct H0 as [-> | (n & ->)]; [constructor|constructor; [exact I|constructor]]|constructor; [exact I|constructor]].
  - split; [eapply dir_same; [eapply same_trans; [apply same_dead|apply same_pend]|exact D]|]. constructor; [exact I|constructor].
  - split; [exact D|]. constructor; [cbn; auto|constructor].
  - rewrite <- surjective_pairing.
    assert (Hs : same_dir s s1).
    { subst s1. destruct (r_gtrid r =? 0); [apply same_refl|]. destruct (assoc_of _ _); [destruct (mem _ _)|]; try apply same_refl; apply same_assoc. }
    apply rout_send; [eapply dir_same; eauto|]. cbn [routed]. split; [assumption|]. destruct (next_in _ _ _ _ H4) as ([j a k] & Hc & Ej). cbn [cc_id] in Ej. subst j.
    assert (Hin : In (mk_cc i a k) (v_conc v)) by (eapply firstn_in; exact Hc).
    exists (v_name v), a, k. split; [eapply dir_lookup_name; eauto|]. split; [|split].
    + apply (dd_o _ _ _ _ D). exists vi, v, i, c. cbn [fst snd]. auto 6.
    + intros h' a' k' HO. apply (dd_o _ _ _ _ D) in HO. destruct HO as (vi' & v' & i' & c' & B & C & E & _). cbn [fst snd] in *.
      assert (vi' = vi) by (apply (n_uniq _ _ _ (dd_n _ _ _ _ D) vi' vi v' v); auto). subst vi'. assert (v' = v) by congruence. subst v'.
      exact (prioritized_min v _ (dd_ord _ _ _ _ D vi v H0) Hc _ E).
    + eapply no_seq_AS; eauto.
  - rewrite <- surjective_pairing.
    assert (Hs : same_dir s s1).
    { subst s1. eapply same_trans; [|apply same_timer]. eapply same_trans; [|apply same_dead]. apply same_upd. reflexivity. }
    apply rout_send; [eapply dir_same; eauto|]. cbn [routed]. exists (v_name v). split; [eapply dir_lookup_name; eauto|]. apply (dd_a1 _ _ _ _ D).
    exists vi, v, i, q. cbn [fst snd]. auto 6.
Qed.
Lemma rout_again b A O e l : forall s, inv s -> dir b A O s -> rout b A O (lookup_again cfg e l s).
Proof.
  unfold lookup_again. induction l as [|p l IH]; intros s Hi D; cbn [each]; [apply rout_nil; exact D|].
  apply rout_then; [apply rout_lookup; assumption|]. intros D1. apply IH; [apply good_lookup; exact Hi|exact D1].
Qed.
Lemma rout_serve b A O e i s : inv s -> dir b A O s -> (exists q, get (s_seq s) i = Some q) -> rout b A O (serve_first cfg e i s).
Proof.
  intros Hi D (q & Hq). unfold serve_first. rewrite Hq. destruct (extract_first _ _) as [[p rest]|]; [|apply rout_nil; exact D].
  apply rout_lookup; [apply inv_pend; exact Hi|]. eapply dir_same; [apply same_pend|exact D].
Qed.
Lemma rout_silent b A O s o : dir b A O s -> Forall (fun x => routed b A O x) o -> rout b A O (s, o).
Proof. intros H1 H2. split; assumption. Qed.

(* ---------------------------------------------------------------- the directory changes *)
Lemma dir_remove b A O s p : inv s -> dir b A O s -> dir b (withdraw p A) (withdraw p O) (fst (remove_process p s)).
Proof.
  intros Hi [D1 D2 D3 D4 D5 D6 D7]. destruct (remove_process_spec p s) as (_ & Hsvc & Hcon). cbv zeta in *. split.
  - eapply dn_same; [apply same_names_remove|exact D1].
  - intros y Hy. apply AS_remove in Hy; [|exact Hi]. apply filter_In. split; [apply D2; tauto|]. apply negb_true_iff. tauto.
  - intros Hb y Hy. apply filter_In in Hy. destruct Hy as [Hy Hp]. apply negb_true_iff in Hp. apply AS_remove; [exact Hi|]. auto.
  - intros y. rewrite OS_remove by exact Hi. unfold withdraw. rewrite filter_In, negb_true_iff, D4. tauto.
  - intros i q. rewrite remove_process_seq. destruct (get (s_seq s) i) as [q0|] eqn:E; [|discriminate]. destruct (p _); [discriminate|]. intros [= <-]. eauto.
  - intros i q. rewrite Hcon. destruct (mem _ _); [discriminate|]. eauto.
  - intros vi v. rewrite Hsvc. destruct (get (s_svc s) vi) as [v0|] eqn:E; [|discriminate]. intros [= <-]. specialize (D7 _ _ E).
    assert (H1 : forall l v, okv v -> okv (v_del_concs l v)) by (intros l; induction l as [|i l IH]; intros v Hv; [exact Hv|apply IH, okv_del_conc, Hv]).
    assert (H2 : forall l v, okv v -> okv (v_del_seqs l v)) by (intros l; induction l as [|i l IH]; intros v Hv; [exact Hv|apply IH, okv_del, Hv]).
    auto.
Qed.

Lemma handle_eq a b : h_pid a = owner (h_ipc a) -> h_pid b = owner (h_ipc b) -> h_ipc a = h_ipc b -> a = b.
Proof. destruct a as [p1 i1], b as [p2 i2]. cbn. intros H1 H2 ->. congruence. Qed.

Lemma insert_ord v0 s s' vi : okv v0 -> grows v0 s s' vi -> (forall k v, get (s_svc s) k = Some v -> okv v) -> forall k v, get (s_svc s') k = Some v -> okv v.
Proof. intros H0 G H k v Hv. destruct (grows_get _ _ _ _ _ _ G Hv) as [Ho | [_ ->]]; eauto. Qed.
Lemma okv_empty n t f : okv (mk_v n t f [] [] 0). Proof. split; [constructor|reflexivity]. Qed.

Lemma add_seq_rest i n s : inv s -> s_con (add_seq_service cfg i n s) = s_con s /\ (forall j, option_map q_proc (get (s_seq (add_seq_service cfg i n s)) j) = option_map q_proc (get (s_seq s) j)) /\
  ((forall k v, get (s_svc s) k = Some v -> okv v) -> forall k v, get (s_svc (add_seq_service cfg i n s)) k = Some v -> okv v).
Proof.
  intros Hi. unfold add_seq_service. destruct (insert_service cfg _ s) as [s1 vi] eqn:E. pose proof (insert_service_grows _ _ _ _ _ Hi E) as G.
  cbn [with_svc with_seq s_con s_seq s_svc]. split; [apply (gr_con _ _ _ _ G)|]. rewrite (gr_seq _ _ _ _ G). split.
  - intros j. rewrite get_upd. destruct (Nat.eqb_spec j i) as [->|]; [|reflexivity]. destruct (get (s_seq s) i); reflexivity.
  - intros H k v Hv. pose proof (insert_ord _ _ _ _ (okv_empty _ _ _) G H) as H'. rewrite get_upd in Hv. destruct (Nat.eqb_spec k vi) as [->|]; [|eauto].
    destruct (get (s_svc s1) vi) as [w|] eqn:Ew; [|discriminate]. injection Hv as <-. apply okv_add. eauto.
Qed.
Lemma dir_adds i h l : forall b A O s, inv s -> dir b A O s -> (exists q, get (s_seq s) i = Some q /\ q_proc q = h) -> Forall U l ->
  let s' := fold_left (fun s n => add_seq_service cfg i n s) l s in dir b (A ++ map (fun o => (h, o)) l) O s' /\ exists q, get (s_seq s') i = Some q /\ q_proc q = h.
Proof.
  induction l as [|n l IH]; intros b A O s Hi D Hq Hl; cbn [fold_left map]; [rewrite app_nil_r; auto|]. inversion Hl as [|? ? Hu Hl']; subst.
  destruct Hq as (q & Hq & Ep). subst h. destruct (add_seq_rest i n s Hi) as (R1 & R2 & R3).
  replace (A ++ (q_proc q, n) :: map (fun o => (q_proc q, o)) l) with ((A ++ [(q_proc q, n)]) ++ map (fun o => (q_proc q, o)) l) by (rewrite <- app_assoc; reflexivity).
  apply IH; [eapply inv_add_seq; eauto| | |exact Hl'].
  - destruct D as [D1 D2 D3 D4 D5 D6 D7]. split.
    + apply (AS_add cfg U HU i n s q (h_nil, 0) Hi D1 Hu Hq).
    + intros y Hy. apply (AS_add cfg U HU i n s q y Hi D1 Hu Hq) in Hy. apply in_or_app. destruct Hy as [Hy | ->]; [auto|right; left; reflexivity].
    + intros Hb y Hy. apply (AS_add cfg U HU i n s q y Hi D1 Hu Hq). apply in_app_or in Hy. destruct Hy as [Hy | [<- | []]]; auto.
    + intros y. rewrite (OS_add_seq cfg i n s y Hi). apply D4.
    + intros j p Hp. destruct (proc_some _ _ _ _ (R2 j) Hp) as (p0 & Hp0 & E). rewrite <- E. eauto.
    + rewrite R1. exact D6.
    + exact (R3 D7).
  - specialize (R2 i). rewrite Hq in R2. destruct (get (s_seq (add_seq_service cfg i n s)) i) as [q'|]; [|discriminate]. injection R2 as R2. exists q'. auto.
Qed.
Lemma removes_ord i ns s : (forall k v, get (s_svc s) k = Some v -> okv v) -> forall k v, get (s_svc (remove_seq_services i ns s)) k = Some v -> okv v.
Proof.
  intros H k v. rewrite remove_seqs_svc. destruct (get (s_svc s) k) as [w|] eqn:E; [|discriminate]. intros [= <-]. unfold del_named. destruct (memz _ _); [apply okv_del|]; eauto.
Qed.
Lemma removes_con_ord i ns s : (forall k v, get (s_svc s) k = Some v -> okv v) -> forall k v, get (s_svc (remove_con_services i ns s)) k = Some v -> okv v.
Proof.
  intros H k v. rewrite remove_cons_svc. destruct (get (s_svc s) k) as [w|] eqn:E; [|discriminate]. intros [= <-]. unfold del_named. destruct (memz _ _); [apply okv_del_conc|]; eauto.
Qed.

Lemma dir_find h b A O s s' i : inv s -> dir b A O s -> h_valid h = true -> h_pid h = owner (h_ipc h) -> find_or_add_seq h s = (s', i) ->
  dir b A O s' /\ exists q, get (s_seq s') i = Some q /\ q_proc q = h.
Proof.
  intros Hi D Hv Ho H. destruct (dir_find_or_add h s s' i Hi H) as (E1 & E2 & E3 & EA & EQ).
  assert (D' : dir b A O s').
  { destruct D as [D1 D2 D3 D4 D5 D6 D7]. split.
    - eapply dn_same; [|exact D1]. apply same_names_eq; assumption.
    - intros y Hy. apply D2, EA, Hy.
    - intros Hb y Hy. apply EA. auto.
    - intros y. rewrite <- D4. split; apply OS_eq; rewrite ?E1, ?E3; eauto.
    - intros j q Hq. destruct (EQ _ _ Hq) as [Hq' | ->]; eauto.
    - rewrite E3. exact D6.
    - rewrite E1. exact D7. }
  split; [exact D'|]. destruct (inv_add_instance _ _ _ _ Hi Hv H) as (_ & q & Hq & Ei). exists q. split; [exact Hq|].
  apply handle_eq; [apply (dd_seq _ _ _ _ D' i q Hq)|exact Ho|exact Ei].
Qed.
Lemma dir_find_con h b A O s s' i : inv s -> dir b A O s -> h_valid h = true -> h_pid h = owner (h_ipc h) -> find_or_add_con h s = (s', i) ->
  dir b A O s' /\ exists q, get (s_con s') i = Some q /\ ci_proc q = h.
Proof.
  intros Hi D Hv Ho H. destruct (dir_find_or_add_con h s s' i Hi H) as (E1 & E2 & E3 & EA & EQ).
  assert (D' : dir b A O s').
  { destruct D as [D1 D2 D3 D4 D5 D6 D7]. split.
    - eapply dn_same; [|exact D1]. apply same_names_eq; assumption.
    - intros y Hy. apply D2. revert Hy. apply AS_eq; rewrite ?E1, ?E3; eauto.
    - intros Hb y Hy. apply (AS_eq s s'); rewrite ?E1, ?E3; eauto.
    - intros y. rewrite <- D4. apply EA.
    - rewrite E3. exact D5.
    - intros j q Hq. destruct (EQ _ _ Hq) as [Hq' | ->]; eauto.
    - rewrite E1. exact D7. }
  split; [exact D'|]. destruct (inv_add_con_instance _ _ _ _ Hi Hv H) as (_ & q & Hq & Ei). exists q. split; [exact Hq|].
  apply handle_eq; [apply (dd_con _ _ _ _ D' i q Hq)|exact Ho|exact Ei].
Qed.

Lemma dir_adv_seq b A O h alias add rem s s' i : inv s -> dir b A O s -> h_valid h = true -> h_pid h = owner (h_ipc h) -> Forall U add ->
  adv_seq cfg h alias add rem s = (s', i) ->
  dir b (filter (fun y => negb ((h_ipc (fst y) =? h_ipc h) && memz (snd y) rem)) (A ++ map (fun o => (h, o)) (filter (g_allow cfg alias) add))) O s'.
Proof.
  intros Hi D Hv Ho Hu H. unfold adv_seq in H. destruct (find_or_add_seq h s) as [s0 k] eqn:E. injection H as <- <-.
  destruct (dir_find h b A O s s0 k Hi D Hv Ho E) as [D0 Hq0]. destruct (inv_add_instance _ _ _ _ Hi Hv E) as [Hi0 _].
  assert (Hu' : Forall U (filter (g_allow cfg alias) add)). { apply Forall_forall. intros x Hx. apply filter_In in Hx. rewrite Forall_forall in Hu. apply Hu. tauto. }
  destruct (dir_adds k h _ b A O s0 Hi0 D0 Hq0 Hu') as [D1 (q & Hq & Ep)].
  assert (Hi1 : inv (fold_left (fun s n => add_seq_service cfg k n s) (filter (g_allow cfg alias) add) s0)) by (apply inv_add_seqs; [exact Hi0|]; destruct Hq0 as (x & Hx & _); eauto).
  set (s1 := fold_left _ _ s0) in *. destruct (remove_seqs_rest k rem s1) as (_ & R1 & R2). destruct D1 as [D1 D2 D3 D4 D5 D6 D7]. split.
  - eapply dn_same; [apply same_names_removes|exact D1].
  - intros y Hy. apply (AS_removes k rem s1 q y Hi1 Hq) in Hy. destruct Hy as [Hy Hn]. apply filter_In. split; [auto|]. apply negb_true_iff, andb_false_iff.
    destruct (Z.eqb_spec (h_ipc (fst y)) (h_ipc h)); [right|left; reflexivity]. apply memz_false. intros Hin. apply Hn. split; [congruence|exact Hin].
  - intros Hb y Hy. apply filter_In in Hy. destruct Hy as [Hy Hn]. apply (AS_removes k rem s1 q y Hi1 Hq). split; [auto|]. intros [E1 E2].
    rewrite Ep in E1. rewrite E1, Z.eqb_refl in Hn. apply memz_In in E2. rewrite E2 in Hn. discriminate.
  - intros y. rewrite OS_removes_seq. apply D4.
  - intros j p Hp. destruct (proc_some _ _ _ _ (R2 j) Hp) as (p0 & Hp0 & Ex). rewrite <- Ex. eauto.
  - rewrite R1. exact D6.
  - apply removes_ord. exact D7.
Qed.

Lemma knows_iff b A O s h o : dir b A O s -> h_pid h = owner (h_ipc h) -> knows h o O = true <-> exists a k, OS s (h, (o, a, k)).
Proof.
  intros D Ho. unfold knows. rewrite existsb_exists. split.
  - intros ([h' [[o' a] k]] & Hin & E). cbn [fst snd] in E. apply andb_prop in E. destruct E as [E1 E2]. apply Z.eqb_eq in E1, E2. subst o'. exists a, k.
    apply (dd_o _ _ _ _ D) in Hin. assert (h' = h); [|subst; exact Hin]. destruct Hin as (vi & v & i & c & _ & _ & _ & Hc & Ec). cbn [fst] in Ec.
    apply handle_eq; [|exact Ho|exact E1]. rewrite <- Ec. apply (dd_con _ _ _ _ D i c Hc).
  - intros (a & k & HO). apply (dd_o _ _ _ _ D) in HO. exists (h, (o, a, k)). split; [exact HO|]. cbn. rewrite !Z.eqb_refl. reflexivity.
Qed.
Lemma dir_adds_con i h order l : forall b A O s, inv s -> dir b A O s -> (exists q, get (s_con s) i = Some q /\ ci_proc q = h) -> Forall (fun x => U (fst (fst x))) l ->
  let s' := fold_left (fun s x => add_con_service cfg i order x s) l s in dir b A (fold_left (offer h order) l O) s' /\ s_con s' = s_con s.
Proof.
  induction l as [|[[n hops] t] l IH]; intros b A O s Hi D Hq Hl; cbn [fold_left]; [auto|]. inversion Hl as [|? ? Hu Hl']; subst. cbn [fst] in Hu.
  destruct Hq as (c & Hc & Ep). subst h. pose proof (add_con_con cfg i order (n, hops, t) s Hi) as Ec.
  assert (D' : dir b A (offer (ci_proc c) order O (n, hops, t)) (add_con_service cfg i order (n, hops, t) s)).
  { pose proof (knows_iff b A O s (ci_proc c) n D (dd_con _ _ _ _ D i c Hc)) as Hk. destruct D as [D1 D2 D3 D4 D5 D6 D7]. split.
    - apply (OS_add cfg U HU i order n hops t s c (h_nil, (0, 0, 0)) Hi D1 Hu Hc).
    - intros y Hy. apply D2. exact (proj1 (AS_add_con cfg i order (n, hops, t) s y Hi) Hy).
    - intros Hb y Hy. exact (proj2 (AS_add_con cfg i order (n, hops, t) s y Hi) (D3 Hb y Hy)).
    - intros y. pose proof (proj2 (OS_add cfg U HU i order n hops t s c y Hi D1 Hu Hc)) as HO. rewrite HO, D4. unfold offer. destruct (knows (ci_proc c) n O) eqn:E.
      + split; [|auto]. intros [H | [-> Hn]]; [exact H|]. exfalso. apply Hn, Hk. reflexivity.
      + rewrite in_app_iff. cbn [In]. split.
        * intros [H | [-> _]]; auto.
        * intros [H | [<- | []]]; [auto|]. right. split; [reflexivity|]. intros Hx. apply Hk in Hx. discriminate.
    - intros j q. replace (s_seq (add_con_service cfg i order (n, hops, t) s)) with (s_seq s); [eauto|].
      unfold add_con_service. destruct (insert_service cfg _ s) as [s1 vi] eqn:E. cbn [with_svc s_seq]. symmetry. apply (gr_seq _ _ _ _ (insert_service_grows _ _ _ _ _ Hi E)).
    - rewrite Ec. exact D6.
    - intros k v. unfold add_con_service. destruct (insert_service cfg _ s) as [s1 vi] eqn:E. pose proof (insert_service_grows _ _ _ _ _ Hi E) as G.
      pose proof (insert_ord _ _ _ _ (okv_empty _ _ _) G D7) as H'. cbn [with_svc s_svc]. rewrite get_upd. destruct (Nat.eqb_spec k vi) as [->|]; [|eauto].
      destruct (get (s_svc s1) vi) as [w|] eqn:Ew; [|discriminate]. intros [= <-]. apply okv_add_conc. eauto. }
  destruct (IH b A (offer (ci_proc c) order O (n, hops, t)) (add_con_service cfg i order (n, hops, t) s)) as [H1 H2]; auto.
  - apply inv_add_con; eauto.
  - rewrite Ec. eauto.
  - split; [exact H1|]. rewrite H2. exact Ec.
Qed.
Lemma dir_order b A O s i order : dir b A O s -> dir b A O (with_con (upd i (fun c => mk_ci (ci_proc c) order) (s_con s)) s).
Proof.
  intros [D1 D2 D3 D4 D5 D6 D7].
  assert (H : forall j c, get (upd i (fun c => mk_ci (ci_proc c) order) (s_con s)) j = Some c -> exists c', get (s_con s) j = Some c' /\ ci_proc c' = ci_proc c).
  { intros j c Hj. rewrite get_upd in Hj. destruct (Nat.eqb_spec j i) as [->|]; [|eauto]. destruct (get (s_con s) i) as [c'|]; [|discriminate]. injection Hj as <-. exists c'. auto. }
  split; cbn [with_con s_svc s_seq s_con]; auto.
  - apply (dn_same cfg U s); [apply same_names_eq; reflexivity|exact D1].
  - intros y. rewrite <- D4. split; apply OS_eq; cbn [with_con s_svc s_con]; eauto.
    intros j c Hc. rewrite get_upd. destruct (Nat.eqb_spec j i) as [->|]; [rewrite Hc; eexists; split; reflexivity|eauto].
  - intros j c Hc. destruct (H _ _ Hc) as (c' & Hc' & <-). eauto.
Qed.
Lemma dir_adv_con b A O h alias order add rem s : inv s -> dir b A O s -> h_valid h = true -> h_pid h = owner (h_ipc h) -> Forall (fun x => U (fst (fst x))) add ->
  dir b A (filter (fun y => negb ((h_ipc (fst y) =? h_ipc h) && memz (fst (fst (snd y))) rem))
    (fold_left (offer h order) (filter (fun x => g_allow cfg alias (fst (fst x))) add) O)) (adv_con cfg h alias order add rem s).
Proof.
  intros Hi D Hv Ho Hu. unfold adv_con. destruct (find_or_add_con h s) as [s0 k] eqn:E.
  destruct (dir_find_con h b A O s s0 k Hi D Hv Ho E) as [D0 (c0 & Hc0 & Ec0)]. destruct (inv_add_con_instance _ _ _ _ Hi Hv E) as [Hi0 _].
  assert (Hu' : Forall (fun x => U (fst (fst x))) (filter (fun x => g_allow cfg alias (fst (fst x))) add)).
  { apply Forall_forall. intros x Hx. apply filter_In in Hx. rewrite Forall_forall in Hu. apply Hu. tauto. }
  pose proof (dir_order _ _ _ _ k order D0) as D0'. pose proof (inv_order s0 k order Hi0) as Hi0'. set (s1 := with_con _ s0) in *.
  assert (Hc1 : get (s_con s1) k = Some (mk_ci (ci_proc c0) order)). { subst s1. cbn [with_con s_con]. rewrite get_upd, Nat.eqb_refl, Hc0. reflexivity. }
  destruct (dir_adds_con k h order _ b A O s1 Hi0' D0' (ex_intro _ _ (conj Hc1 Ec0)) Hu') as [D2' Ec2].
  assert (Hi2 : inv (fold_left (fun s x => add_con_service cfg k order x s) (filter (fun x => g_allow cfg alias (fst (fst x))) add) s1)) by (apply inv_add_cons; eauto).
  set (s2 := fold_left (fun s x => add_con_service cfg k order x s) _ s1) in *. rewrite <- Ec2 in Hc1.
  destruct (remove_cons_rest k rem s2) as (_ & R1 & R2). destruct D2' as [D1 D2 D3 D4 D5 D6 D7]. split.
  - eapply dn_same; [apply same_names_removes_con|exact D1].
  - intros y Hy. apply D2. exact (proj1 (AS_removes_con k rem s2 y) Hy).
  - intros Hb y Hy. exact (proj2 (AS_removes_con k rem s2 y) (D3 Hb y Hy)).
  - intros y. rewrite (OS_removes k rem s2 _ y Hi2 Hc1), D4, filter_In. cbn [ci_proc]. rewrite Ec0. split.
    + intros [Hy Hn]. split; [exact Hy|]. apply negb_true_iff, andb_false_iff. destruct (Z.eqb_spec (h_ipc (fst y)) (h_ipc h)); [right|left; reflexivity]. apply memz_false. tauto.
    + intros [Hy Hn]. split; [exact Hy|]. intros [E1 E2]. rewrite E1, Z.eqb_refl in Hn. apply memz_In in E2. rewrite E2 in Hn. discriminate.
  - rewrite R2. exact D5.
  - rewrite R1. exact D6.
  - apply removes_con_ord. exact D7.
Qed.

(* a prepare: the instances leave their services *)
Lemma prepare_services_dir i l : forall s ns ok s' ns' ok', fold_left (fun x vi =>
    let '(s, ns, ok) := x in
    match get (s_svc s) vi with
    | None => (s, ns, false)
    | Some v => (with_svc (upd vi (v_del_seq i) (s_svc s)) s, if v_empty (v_del_seq i v) then ns ++ names_of vi s else ns, ok)
    end) l (s, ns, ok) = (s', ns', ok') ->
  same_names s s' /\ s_seq s' = s_seq s /\ s_con s' = s_con s /\
  (forall k v, get (s_svc s') k = Some v -> exists v0, get (s_svc s) k = Some v0 /\ v_name v = v_name v0 /\ v_conc v = v_conc v0 /\ v_prio v = v_prio v0 /\
     (forall j, In j (v_seq v) -> In j (v_seq v0) /\ (In k l -> j <> i))) /\
  (forall k v0, get (s_svc s) k = Some v0 -> exists v, get (s_svc s') k = Some v /\ v_name v = v_name v0 /\ v_conc v = v_conc v0).
Proof.
  induction l as [|vi l IH]; intros s ns ok s' ns' ok' H; cbn [fold_left] in H.
  - injection H as <- <- <-. split; [apply same_names_refl|]. split; [reflexivity|]. split; [reflexivity|]. split; [|eauto]. intros k v Hv. exists v. repeat split; auto.
  - destruct (get (s_svc s) vi) as [w|] eqn:Ew.
    + destruct (IH _ _ _ _ _ _ H) as (A & B & C & D & E). cbn [with_svc s_seq s_con s_svc] in *. split; [|split; [exact B|split; [exact C|split]]].
      * eapply same_names_trans; [apply (same_names_upd s vi (v_del_seq i)); reflexivity|exact A].
      * intros k v Hv. destruct (D _ _ Hv) as (v1 & H1 & N & Cc & P & S). rewrite get_upd in H1. destruct (Nat.eqb_spec k vi) as [->|Hne].
        -- rewrite Ew in H1. injection H1 as <-. exists w. repeat split; auto.
           ++ apply S in H0. destruct H0 as [H0 _]. apply v_del_seq_in in H0. tauto.
           ++ intros _. apply S in H0. destruct H0 as [H0 _]. apply v_del_seq_in in H0. tauto.
        -- exists v1. repeat split; auto; [apply S; exact H0|]. intros [<-|Hin]; [congruence|]. apply (S j H0). exact Hin.
      * intros k v0 Hv0. assert (H1 : exists v1, get (upd vi (v_del_seq i) (s_svc s)) k = Some v1 /\ v_name v1 = v_name v0 /\ v_conc v1 = v_conc v0).
        { rewrite get_upd. destruct (Nat.eqb_spec k vi) as [->|]; [rewrite Hv0; eexists; split; [reflexivity|split; reflexivity]|eauto]. }
        destruct H1 as (v1 & H1 & H2 & H3). destruct (E _ _ H1) as (v & H4 & H5 & H6). exists v. split; [exact H4|]. split; congruence.
    + destruct (IH _ _ _ _ _ _ H) as (A & B & C & D & E). split; [exact A|]. split; [exact B|]. split; [exact C|]. split; [|exact E].
      intros k v Hv. destruct (D _ _ Hv) as (v1 & H1 & N & Cc & P & S). exists v1. repeat split; auto; [apply S; exact H0|]. intros [<-|Hin]; [congruence|]. apply (S j H0). exact Hin.
Qed.
Lemma withdraw_withdraw {T} (p q : handle -> bool) (A : list (handle * T)) : withdraw q (withdraw p A) = withdraw (fun x => p x || q x) A.
Proof. unfold withdraw. induction A as [|y A IH]; cbn; [reflexivity|]. destruct (p (fst y)); cbn; [exact IH|]. destruct (q (fst y)); cbn; congruence. Qed.
Lemma dir_sub A O s B : dir false A O s -> (forall y, AS s y -> In y B) -> dir false B O s.
Proof. intros [D1 D2 D3 D4 D5 D6 D7] H. split; auto. discriminate. Qed.
Lemma prepare_each_dir hs : forall A O s s' ns is us ok, inv s -> dir false A O s -> prepare_each hs s = (s', ns, is, us, ok) ->
  dir false (withdraw (fun x => existsb (fun h => h_ipc h =? h_ipc x) hs) A) O s'.
Proof.
  induction hs as [|h hs IH]; intros A O s s' ns is us ok Hi D H; cbn [prepare_each] in H.
  - injection H as <- <- <- <- <-. eapply dir_sub; [exact D|]. intros y Hy. apply filter_In. split; [apply (dd_a1 _ _ _ _ D); exact Hy|reflexivity].
  - assert (Hstep : forall s1, inv s1 -> dir false (withdraw (fun x => h_ipc h =? h_ipc x) A) O s1 -> forall x, prepare_each hs s1 = x -> 
       dir false (withdraw (fun x => existsb (fun h => h_ipc h =? h_ipc x) (h :: hs)) A) O (fst (fst (fst (fst x))))).
    { intros s1 Hi1 D1 [[[[s2 ns2] is2] us2] ok2] E. cbn [fst]. pose proof (IH _ _ _ _ _ _ _ _ Hi1 D1 E) as D2. rewrite withdraw_withdraw in D2. exact D2. }
    destruct (find_seq (h_ipc h) s) as [i|] eqn:Ef.
    + destruct (find_seq_some _ _ _ Ef) as (q & Hq & Eq). rewrite Hq in H.
      destruct (prepare_services i (q_serv q) s) as [[s1 ns1] ok1] eqn:Ep. destruct (prepare_each hs s1) as [[[[s2 ns2] is2] us2] ok2] eqn:Er. injection H as <- <- <- <- <-.
      unfold prepare_services in Ep. pose proof (prepare_services_dir _ _ _ _ _ _ _ _ Ep) as (P1 & P2 & P3 & P4 & P5).
      apply prepare_services_inv in Ep; [|exact Hi|intros vi Hvi; eapply i_serv; eauto]. destruct Ep as (Hi1 & _ & _ & _).
      apply (Hstep s1 Hi1) with (x := (s2, ns2, is2, us2, ok2)); [|exact Er]. destruct D as [D1 D2 D3 D4 D5 D6 D7]. split.
      * eapply dn_same; eauto.
      * intros y (k & v & j & p & B & C & E & F & G). destruct (P4 _ _ B) as (v0 & B0 & N & _ & _ & S). destruct (S j E) as [E0 Hn]. rewrite P2 in F.
        apply filter_In. split; [apply D2; exists k, v0, j, p; repeat split; congruence || assumption|]. apply negb_true_iff, Z.eqb_neq. intros Eh.
        destruct (i_seq _ Hi _ _ _ B0 E0) as (p' & Hp' & Hs'). assert (p' = p) by congruence. subst p'.
        assert (j = i) by (apply (find_seq_unique (h_ipc h) s i Hi Ef j p F); congruence). subst j. assert (p = q) by congruence. subst p. apply Hn; [exact Hs'|reflexivity].
      * discriminate.
      * intros y. rewrite <- D4. split; apply OS_eq; rewrite ?P3; eauto.
        -- intros k v Hv. destruct (P4 _ _ Hv) as (v0 & B0 & N & C0 & _). exists v0. split; [exact B0|]. split; [congruence|]. rewrite C0. auto.
        -- intros k v Hv. destruct (P5 _ _ Hv) as (v0 & B0 & N & C0). exists v0. split; [exact B0|]. split; [congruence|]. rewrite C0. auto.
      * rewrite P2. exact D5.
      * rewrite P3. exact D6.
      * intros k v Hv. destruct (P4 _ _ Hv) as (v0 & B0 & _ & C0 & P0 & _). eapply okv_same; eauto.
    + destruct (prepare_each hs s) as [[[[s2 ns2] is2] us2] ok2] eqn:Er. injection H as <- <- <- <- <-.
      apply (Hstep s Hi) with (x := (s2, ns2, is2, us2, ok2)); [|exact Er]. eapply dir_sub; [exact D|]. intros y Hy. apply filter_In. split; [apply (dd_a1 _ _ _ _ D); exact Hy|].
      apply negb_true_iff, Z.eqb_neq. intros Eh. destruct Hy as (k & v & j & p & B & C & E & F & G). eapply (find_seq_none _ _ Ef); [exact F|congruence].
Qed.

(* ---------------------------------------------------------------- disabled instances offer nothing, unless ordered killed *)
Definition dok (b : bool) (s : state) : Prop :=
  (forall i, In i (s_disabled s) -> exists q, get (s_seq s) i = Some q /\ forall o, ~ AS s (q_proc q, o)) /\ (b = true -> s_disabled s = []).
Definition not_fatal (o : list out) : Prop := forall pid, ~ In (O_assassinate pid true) o.
Lemma not_fatal_app a c : not_fatal (a ++ c) <-> not_fatal a /\ not_fatal c.
Proof. unfold not_fatal. split; [intros H; split; intros p Hp; apply (H p), in_or_app; auto|]. intros [H1 H2] p Hp. apply in_app_or in Hp. destruct Hp; [eapply H1|eapply H2]; eauto. Qed.

Lemma dok_weaken b s s' : s_disabled s' = s_disabled s -> (forall i q, get (s_seq s) i = Some q -> exists q', get (s_seq s') i = Some q' /\ q_proc q' = q_proc q) ->
  (forall y, AS s' y -> AS s y) -> dok b s -> dok b s'.
Proof.
  intros H1 H2 H3 [A B]. split; [|rewrite H1; exact B]. intros i Hi. rewrite H1 in Hi. destruct (A i Hi) as (q & Hq & Hn). destruct (H2 i q Hq) as (q' & Hq' & E).
  exists q'. split; [exact Hq'|]. intros o Ho. rewrite E in Ho. apply (Hn o), H3, Ho.
Qed.
Lemma dok_same b s s' : same_dir s s' -> dok b s -> dok b s'.
Proof.
  intros H. apply dok_weaken; [apply (sd_dis _ _ H)| |intros y; apply (AS_same s s' y H)]. intros i q Hq. destruct (same_get2 _ _ _ _ H Hq) as (q' & A & B & _). eauto.
Qed.
Lemma dok_eq b s s' : s_svc s' = s_svc s -> s_seq s' = s_seq s -> s_disabled s' = s_disabled s -> dok b s -> dok b s'.
Proof. intros H1 H2 H3. apply dok_weaken; [exact H3|rewrite H2; eauto|]. intros y. apply AS_eq; rewrite ?H1, ?H2; eauto. Qed.
Lemma remove_dis p s : s_disabled (fst (remove_process p s)) = filter (fun i => negb (mem i (having (fun q => p (q_proc q)) (s_seq s)))) (s_disabled s).
Proof.
  unfold remove_process. cbn [fst].
  assert (A : forall l s, s_disabled (fold_left (fun s i => remove_con_instance i s) l s) = s_disabled s) by (intros l s0; apply (fold_eq _ s_disabled); reflexivity).
  assert (B : forall l s, s_disabled (fold_left (fun s i => remove_seq_instance i s) l s) = filter (fun i => negb (mem i l)) (s_disabled s)).
  { induction l as [|x l IH]; intros s0; cbn [fold_left]; [cbn; rewrite filter_true; reflexivity|]. rewrite IH. unfold remove_seq_instance, erase. cbn [with_disabled s_disabled].
    induction (s_disabled s0) as [|y ys IHy]; [reflexivity|]. cbn [filter]. unfold mem at 2. cbn [existsb]. rewrite (Nat.eqb_sym y x). destruct (Nat.eqb x y); cbn [negb orb filter]; rewrite ?IHy; reflexivity. }
  rewrite B, A. reflexivity.
Qed.
Lemma dok_remove b p s : inv s -> dok b s -> dok b (fst (remove_process p s)).
Proof.
  intros Hi [A B]. split; [|rewrite remove_dis; intros Hb; rewrite (B Hb); reflexivity]. intros i Hin. rewrite remove_dis in Hin. apply filter_In in Hin. destruct Hin as [Hin Hn].
  destruct (A i Hin) as (q & Hq & Ho). exists q. split; [|intros o Hx; apply (Ho o); apply (AS_remove p s _ Hi) in Hx; tauto]. rewrite remove_process_seq, Hq.
  destruct (p (q_proc q)) eqn:Ep; [|reflexivity]. exfalso. apply negb_true_iff, mem_false in Hn. apply Hn, in_having. eauto.
Qed.

Lemma insert_dis v s : s_disabled (fst (insert_service cfg v s)) = s_disabled s.
Proof.
  unfold insert_service. destruct (g_routes cfg (v_name v)) as [|n0 ns].
  - destruct (lookup_name (v_name v) s); [reflexivity|]. destruct (insert v (s_svc s)). reflexivity.
  - destruct (lookup_name (v_name v) s); [reflexivity|]. destruct (first_known (n0 :: ns) s); [reflexivity|]. destruct (insert v (s_svc s)). reflexivity.
Qed.
Lemma add_seq_dis i n s : s_disabled (add_seq_service cfg i n s) = s_disabled s.
Proof.
  unfold add_seq_service. set (v := mk_v _ _ _ _ _ _). assert (H : s_disabled (fst (insert_service cfg v s)) = s_disabled s).
  { unfold insert_service. destruct (g_routes cfg (v_name v)) as [|n0 ns].
    - destruct (lookup_name (v_name v) s); [reflexivity|]. destruct (insert v (s_svc s)). reflexivity.
    - destruct (lookup_name (v_name v) s); [reflexivity|]. destruct (first_known (n0 :: ns) s); [reflexivity|]. destruct (insert v (s_svc s)). reflexivity. }
  destruct (insert_service cfg v s). exact H.
Qed.
Lemma add_con_dis i order x s : s_disabled (add_con_service cfg i order x s) = s_disabled s.
Proof.
  destruct x as [[n hops] t]. unfold add_con_service. set (v := mk_v _ _ _ _ _ _). assert (H : s_disabled (fst (insert_service cfg v s)) = s_disabled s).
  { unfold insert_service. destruct (g_routes cfg (v_name v)) as [|n0 ns].
    - destruct (lookup_name (v_name v) s); [reflexivity|]. destruct (insert v (s_svc s)). reflexivity.
    - destruct (lookup_name (v_name v) s); [reflexivity|]. destruct (first_known (n0 :: ns) s); [reflexivity|]. destruct (insert v (s_svc s)). reflexivity. }
  destruct (insert_service cfg v s). exact H.
Qed.
Lemma removes_dis i ns s : s_disabled (remove_seq_services i ns s) = s_disabled s /\ s_disabled (remove_con_services i ns s) = s_disabled s.
Proof.
  split; [apply (fold_eq _ s_disabled)|apply (fold_eq _ s_disabled)]; intros s0 k; destruct (get (s_svc s0) k); try reflexivity; destruct (memz _ _); reflexivity.
Qed.
Lemma find_or_add_dis h s : s_disabled (fst (find_or_add_seq h s)) = s_disabled s /\ s_disabled (fst (find_or_add_con h s)) = s_disabled s.
Proof. unfold find_or_add_seq, find_or_add_con. split; [destruct (find_seq _ _)|destruct (find_con _ _)]; try reflexivity; destruct (insert _ _); reflexivity. Qed.
Lemma dok_find b h s s' i : inv s -> find_or_add_seq h s = (s', i) -> dok b s -> dok b s'.
Proof.
  intros Hi H. destruct (dir_find_or_add h s s' i Hi H) as (_ & _ & _ & EA & _). apply dok_weaken.
  - pose proof (proj1 (find_or_add_dis h s)) as E. rewrite H in E. exact E.
  - intros j q Hq. exists q. split; [|reflexivity]. unfold find_or_add_seq in H. destruct (find_seq _ _); [injection H as <- <-; exact Hq|]. destruct (insert _ _) as [l k] eqn:E. injection H as <- <-.
    destruct (insert_spec _ _ _ _ E) as [H1 H2]. cbn [with_seq s_seq]. rewrite H2. destruct (Nat.eqb_spec j k); [congruence|exact Hq].
  - intros y. apply EA.
Qed.
Lemma dok_adv_seq b A O h alias add rem s s0 s' i : inv s -> dir b A O s -> h_valid h = true -> h_pid h = owner (h_ipc h) -> Forall U add -> dok b s ->
  find_or_add_seq h s = (s0, i) -> mem i (s_disabled s0) = false -> adv_seq cfg h alias add rem s = (s', i) -> dok b s'.
Proof.
  intros Hi D Hv Ho Hu K E Em H. pose proof (dok_find b h s s0 i Hi E K) as K0. unfold adv_seq in H. rewrite E in H. injection H as <-.
  destruct (dir_find h b A O s s0 i Hi D Hv Ho E) as [D0 (q0 & Hq0 & Ep0)]. destruct (inv_add_instance _ _ _ _ Hi Hv E) as [Hi0 _].
  assert (Hu' : Forall U (filter (g_allow cfg alias) add)). { apply Forall_forall. intros x Hx. apply filter_In in Hx. rewrite Forall_forall in Hu. apply Hu. tauto. }
  assert (G : forall l s1, Forall U l -> inv s1 -> dn cfg U s1 -> (exists q, get (s_seq s1) i = Some q) -> mem i (s_disabled s1) = false -> dok b s1 -> let s2 := fold_left (fun s n => add_seq_service cfg i n s) l s1 in dok b s2).
  { induction l as [|n l IH]; intros s1 Hl Hi1 Hd1 (q & Hq) Hm1 K1; cbn [fold_left]; [exact K1|]. inversion Hl as [|? ? Hn Hl']; subst.
    destruct (add_seq_rest i n s1 Hi1) as (R1 & R2 & _).
    apply IH; auto.
    - eapply inv_add_seq; eauto.
    - apply (AS_add cfg U HU i n s1 q (h_nil, 0) Hi1 Hd1 Hn Hq).
    - apply add_seq_get; eauto.
    - rewrite add_seq_dis. exact Hm1.
    - destruct K1 as [K1 K2]. split; [|rewrite add_seq_dis; exact K2]. intros j Hj. rewrite add_seq_dis in Hj. destruct (K1 j Hj) as (p & Hp & Hn').
      destruct (proc_some _ _ _ _ (eq_sym (R2 j)) Hp) as (p' & Hp' & Epp). exists p'. split; [exact Hp'|]. rewrite Epp. intros o HA.
      apply (AS_add cfg U HU i n s1 q _ Hi1 Hd1 Hn Hq) in HA. destruct HA as [HA|HA]; [eapply Hn'; eauto|]. injection HA as HA _.
      assert (j = i) by (apply (i_ipc _ Hi1 j i p q); congruence). subst j. apply mem_false in Hm1. contradiction. }
  pose proof (G _ s0 Hu' Hi0 (dd_n _ _ _ _ D0) (ex_intro _ q0 Hq0) Em K0) as K1. cbv zeta in K1.
  assert (Hi1 : inv (fold_left (fun s n => add_seq_service cfg i n s) (filter (g_allow cfg alias) add) s0)) by (apply inv_add_seqs; eauto).
  destruct (dir_adds i h _ b A O s0 Hi0 D0 (ex_intro _ q0 (conj Hq0 Ep0)) Hu') as [_ (q & Hq & _)].
  set (s1 := fold_left _ _ s0) in *. destruct (remove_seqs_rest i rem s1) as (_ & _ & R2). eapply dok_weaken; [apply removes_dis| | |exact K1].
  - intros j p Hp. destruct (proc_some _ _ _ _ (eq_sym (R2 j)) Hp) as (p' & Hp' & Epp). eauto.
  - intros y HA. apply (AS_removes i rem s1 q y Hi1 Hq) in HA. tauto.
Qed.
Lemma adv_con_dis h alias order add rem s : s_disabled (adv_con cfg h alias order add rem s) = s_disabled s.
Proof.
  unfold adv_con. pose proof (proj2 (find_or_add_dis h s)) as E. destruct (find_or_add_con h s) as [s0 i]. cbn [fst] in E. rewrite (proj2 (removes_dis _ _ _)).
  rewrite (fold_eq _ s_disabled); [exact E|]. intros s1 x. apply add_con_dis.
Qed.
Lemma adv_con_AS h alias order add rem s y : inv s -> h_valid h = true -> AS (adv_con cfg h alias order add rem s) y -> AS s y.
Proof.
  intros Hi Hv. unfold adv_con. destruct (find_or_add_con h s) as [s0 i] eqn:E. destruct (dir_find_or_add_con h s s0 i Hi E) as (E1 & E2 & E3 & _).
  destruct (inv_add_con_instance _ _ _ _ Hi Hv E) as (Hi0 & c & Hc & _).
  intros H. apply (proj1 (AS_removes_con _ _ _ _)) in H.
  assert (G : forall l s1, inv s1 -> (exists c, get (s_con s1) i = Some c) -> AS (fold_left (fun s x => add_con_service cfg i order x s) l s1) y -> AS s1 y).
  { induction l as [|x l IH]; intros s1 Hi1 Hc1; cbn [fold_left]; [auto|]. intros HA. apply IH in HA; [|apply inv_add_con; auto|rewrite add_con_con; auto].
    exact (proj1 (AS_add_con cfg i order x s1 y Hi1) HA). }
  apply G in H; [|apply inv_order; exact Hi0|cbn [with_con s_con]; rewrite get_upd, Nat.eqb_refl, Hc; eexists; reflexivity].
  revert H. apply AS_eq; cbn [with_con s_svc s_seq]; rewrite ?E1, ?E3; eauto.
Qed.

Lemma expire_one_dis x s : not_fatal (snd (expire_one x s)) -> s_disabled (fst (expire_one x s)) = s_disabled s /\ same_dir (with_late (s_late (fst (expire_one x s))) s) (fst (expire_one x s)).
Proof.
  assert (Hs : forall s, same_dir (with_late (s_late s) s) s) by (intros []; split; reflexivity).
  unfold expire_one. destruct (extract_first _ _) as [[p rest]|]; [intros _; cbn [fst]; split; [reflexivity|split; reflexivity]|].
  destruct (d_serv x) as [vi|]; [|split; [reflexivity|apply Hs]]. destruct (d_target x) as [i|]; [|split; [reflexivity|apply Hs]].
  destruct (get (s_svc s) vi) as [v|]; [|split; [reflexivity|apply Hs]]. destruct (get (s_seq s) i) as [q|]; [|split; [reflexivity|apply Hs]].
  destruct (_ =? _); [|split; [reflexivity|apply Hs]].
  assert (Hu : forall s, same_dir s (with_seq (upd i q_consume (s_seq s)) s)) by (intros s0; apply same_upd; reflexivity).
  cbv zeta. destruct (h_valid _); [|intros _; cbn [fst]; split; [reflexivity|]; destruct (Hu s) as [U1 U2 U3 U4 U5 U6 U7]; split; auto]. cbn [fst snd]. intros Hf. destruct (v_fatal v) eqn:Ev.
  - exfalso. apply (Hf (h_pid (q_proc q))). right. left. reflexivity.
  - split; [reflexivity|]. destruct (Hu s) as [U1 U2 U3 U4 U5 U6 U7]. split; auto.
Qed.
Lemma dir_late b A O s l : dir b A O s -> dir b A O (with_late l s).
Proof. intros [D1 D2 D3 D4 D5 D6 D7]. split; auto. apply (dn_same cfg U s); [apply same_names_eq; reflexivity|exact D1]. Qed.
Lemma expire_dir b A O x s : dir b A O s -> dir b A O (fst (expire_one x s)).
Proof.
  intros D. assert (Hc : forall i, dir b A O (with_seq (upd i q_consume (s_seq s)) s)) by (intros i; eapply dir_same; [apply same_upd; reflexivity|exact D]).
  assert (Hdis : forall l s, dir b A O s -> dir b A O (with_disabled l s)).
  { intros l s0 [D1 D2 D3 D4 D5 D6 D7]. split; auto. apply (dn_same cfg U s0); [apply same_names_eq; reflexivity|exact D1]. }
  unfold expire_one. destruct (extract_first _ _) as [[p rest]|]; [eapply dir_same; [apply same_pend|exact D]|].
  destruct (d_serv x) as [vi|]; [|exact D]. destruct (d_target x) as [i|]; [|exact D]. destruct (get (s_svc s) vi) as [v|]; [|exact D]. destruct (get (s_seq s) i) as [q|]; [|exact D].
  destruct (_ =? _); [|exact D]. cbv zeta. destruct (h_valid _); [|apply Hc]. cbn [fst]. destruct (v_fatal v); [apply Hdis|]; apply dir_late, Hc.
Qed.
Lemma expire_dok b x s : not_fatal (snd (expire_one x s)) -> dok b s -> dok b (fst (expire_one x s)).
Proof.
  intros Hf K. destruct (expire_one_dis x s Hf) as [_ H]. eapply dok_same; [exact H|]. apply (dok_eq b s); auto.
Qed.
Lemma expires b A O l : forall s, dir b A O s -> dir b A O (fst (each expire_one l s)) /\ Forall (routed b A O) (snd (each expire_one l s)) /\
  (not_fatal (snd (each expire_one l s)) -> dok b s -> dok b (fst (each expire_one l s))).
Proof.
  induction l as [|x l IH]; intros s D; cbn [each]; [split; [exact D|split; [constructor|auto]]|]. rewrite then_fst, then_snd.
  destruct (IH _ (expire_dir b A O x s D)) as (H1 & H2 & H3). split; [exact H1|]. split.
  - apply Forall_app. split; [|exact H2]. apply Forall_forall. intros y Hy. unfold expire_one in Hy.
    destruct (extract_first _ _) as [[p rest]|]; [destruct Hy as [<- | []]; exact I|].
    destruct (d_serv x) as [vi|]; [|destruct Hy]. destruct (d_target x) as [i|]; [|destruct Hy]. destruct (get (s_svc s) vi) as [v|]; [|destruct Hy]. destruct (get (s_seq s) i) as [q|]; [|destruct Hy].
    destruct (_ =? _); [|destruct Hy]. cbv zeta in Hy. destruct (h_valid _); [|destruct Hy]. destruct Hy as [<- | [<- | []]]; exact I.
  - intros Hf K. apply not_fatal_app in Hf. destruct Hf as [F1 F2]. apply H3; [exact F2|]. apply expire_dok; assumption.
Qed.

Lemma prepare_each_is hs : forall s s' ns is us ok, prepare_each hs s = (s', ns, is, us, ok) -> s_disabled s' = s_disabled s /\
  (inv s -> forall i, In i is -> exists q, get (s_seq s) i = Some q /\ existsb (fun h => h_ipc h =? h_ipc (q_proc q)) hs = true).
Proof.
  induction hs as [|h hs IH]; intros s s' ns is us ok H; cbn [prepare_each] in H; [injection H as <- <- <- <- <-; split; [reflexivity|]; intros _ i []|].
  destruct (find_seq (h_ipc h) s) as [i|] eqn:Ef.
  - destruct (find_seq_some _ _ _ Ef) as (q & Hq & Eq). rewrite Hq in H.
    destruct (prepare_services i (q_serv q) s) as [[s1 ns1] ok1] eqn:Ep. destruct (prepare_each hs s1) as [[[[s2 ns2] is2] us2] ok2] eqn:Er. injection H as <- <- <- <- <-.
    destruct (IH _ _ _ _ _ _ Er) as [H1 H2]. unfold prepare_services in Ep.
    assert (Hd : s_disabled s1 = s_disabled s).
    { assert (G : forall l x, s_disabled (fst (fst (fold_left (fun x vi => let '(s, ns, ok) := x in
          match get (s_svc s) vi with
          | None => (s, ns, false)
          | Some v => (with_svc (upd vi (v_del_seq i) (s_svc s)) s, if v_empty (v_del_seq i v) then ns ++ names_of vi s else ns, ok)
          end) l x))) = s_disabled (fst (fst x))).
      { induction l as [|k l IHl]; intros x; cbn [fold_left]; [reflexivity|]. rewrite IHl. destruct x as [[x1 x2] x3]. cbn [fst]. destruct (get (s_svc x1) k); reflexivity. }
      specialize (G (q_serv q) (s, [], true)). rewrite Ep in G. exact G. }
    split; [congruence|]. intros Hi j [<-|Hj]; [exists q; split; [exact Hq|]; cbn; rewrite Eq, Z.eqb_refl; reflexivity|].
    pose proof (prepare_services_dir _ _ _ _ _ _ _ _ Ep) as (_ & P2 & _). apply prepare_services_inv in Ep; [|exact Hi|intros vi Hvi; eapply i_serv; eauto]. destruct Ep as (Hi1 & _ & _ & _).
    destruct (H2 Hi1 j Hj) as (p & Hp & E). rewrite P2 in Hp. exists p. split; [exact Hp|]. cbn [existsb]. rewrite E. apply orb_true_r.
  - destruct (prepare_each hs s) as [[[[s2 ns2] is2] us2] ok2] eqn:Er. injection H as <- <- <- <- <-. destruct (IH _ _ _ _ _ _ Er) as [H1 H2]. split; [exact H1|].
    intros Hi j Hj. destruct (H2 Hi j Hj) as (p & Hp & E). exists p. split; [exact Hp|]. cbn [existsb]. rewrite E. apply orb_true_r.
Qed.

Definition ok_input (b : bool) (i : input) : Prop :=
  (forall h, In h (handles i) -> h_pid h = owner (h_ipc h)) /\ (forall o, In o (services_of i) -> U o) /\ (b = true -> match i with I_prepare _ _ => False | _ => True end).

Lemma shutdown_routed b A O ds : Forall (routed b A O) (map shutdown_fired ds).
Proof. apply Forall_forall. intros x Hx. apply in_map_iff in Hx. destruct Hx as (d & <- & _). exact I. Qed.
Lemma dok_lookup b e r s : inv s -> dok b s -> dok b (fst (lookup cfg e r s)).
Proof. intros Hi. apply dok_same. eapply looked_same. apply lookup_looked. exact Hi. Qed.

Lemma advertised1_adv A e h alias add rem : h_valid h = true -> add <> [] \/ rem <> [] -> advertised1 cfg A (Rcv e (I_advertise h alias add rem)) =
  filter (fun y => negb ((h_ipc (fst y) =? h_ipc h) && memz (snd y) rem)) (A ++ map (fun o => (h, o)) (filter (g_allow cfg alias) add)).
Proof. intros Hv H. unfold advertised1. rewrite Hv. cbn [negb]. destruct add; [destruct rem; [destruct H; congruence|reflexivity]|reflexivity]. Qed.
Lemma offered1_adv O e h alias add rem : add <> [] \/ rem <> [] -> offered1 cfg O (Rcv e (I_advertise h alias add rem)) = O.
Proof. intros H. cbn [offered1]. destruct add; [destruct rem; [destruct H; congruence|reflexivity]|reflexivity]. Qed.

Theorem step_dir b A O e i s : inv s -> dir b A O s -> dok b s -> ok_input b i -> not_fatal (snd (step cfg e i s)) ->
  rout b (advertised1 cfg A (Rcv e i)) (offered1 cfg O (Rcv e i)) (step cfg e i s) /\ dok b (fst (step cfg e i s)).
Proof.
  intros Hi D K (Hown & Hserv & Hb) Hf. destruct i; cbn [step] in *.
  - (* advertise *)
    cbn [handles services_of] in *. specialize (Hown h (or_introl eq_refl)). assert (Hu : Forall U add) by (apply Forall_forall; exact Hserv). clear Hf.
    apply (advertise_cases cfg e h alias add remove s (fun x => rout b (advertised1 cfg A (Rcv e (I_advertise h alias add remove))) (offered1 cfg O (Rcv e (I_advertise h alias add remove))) x /\ dok b (fst x))).
    + intros Hv. assert (Ea : advertised1 cfg A (Rcv e (I_advertise h alias add remove)) = A) by (unfold advertised1; rewrite Hv; reflexivity).
      assert (Eo : offered1 cfg O (Rcv e (I_advertise h alias add remove)) = O) by (unfold offered1; rewrite Hv; destruct add, remove; reflexivity).
      rewrite Ea, Eo. split; [apply rout_nil; exact D|exact K].
    + intros Hv -> ->. cbn [advertised1 offered1]. rewrite Hv. cbn [negb]. split; [apply rout_nil, dir_remove; assumption|apply dok_remove; assumption].
    + intros s0 i Hv Hne E Em. rewrite advertised1_adv, offered1_adv by assumption. destruct (dir_find h b A O s s0 i Hi D Hv Hown E) as [D0 (q & Hq & Ep)].
      pose proof (dok_find b h s s0 i Hi E K) as K0. apply mem_In in Em.
      assert (Hbf : b = false). { destruct b; [|reflexivity]. destruct K0 as [_ K0]. rewrite (K0 eq_refl) in Em. destruct Em. } subst b.
      split.
      * apply rout_nil. assert (D0' : dir false A O (undisable i s0)).
        { destruct D0 as [D1 D2 D3 D4 D5 D6 D7]. split; auto. apply (dn_same cfg U s0); [apply same_names_eq; reflexivity|exact D1]. }
        eapply dir_sub; [exact D0'|]. intros y HA. change (AS s0 y) in HA. apply filter_In. split; [apply in_or_app; left; apply (dd_a1 _ _ _ _ D0); exact HA|].
        apply negb_true_iff, andb_false_iff. left. apply Z.eqb_neq. intros Ei. destruct K0 as [K0 _]. destruct (K0 i Em) as (q' & Hq' & Hn). assert (q' = q) by congruence. subst q'.
        apply (Hn (snd y)). rewrite Ep. replace h with (fst y); [rewrite <- surjective_pairing; exact HA|].
        apply handle_eq; [|exact Hown|exact Ei]. destruct HA as (k & v & j & p & _ & _ & _ & F & G). rewrite <- G. apply (dd_seq _ _ _ _ D0 j p F).
      * cbn [fst]. destruct K0 as [K0 _]. split; [|discriminate]. intros j Hj. unfold undisable in Hj. cbn [with_disabled s_disabled] in Hj. apply (K0 j).
        destruct (extract_first (Nat.eqb i) (s_disabled s0)) as [[x l]|] eqn:Ex; [|exact Hj]. destruct (extract_first_some _ _ _ _ Ex) as (l1 & l2 & El & El2 & _). rewrite El. subst l.
        apply in_app_or in Hj. apply in_or_app. destruct Hj; [auto|right; right; assumption].
    + intros s0 s1 i Hv Hne E0 Em E. rewrite advertised1_adv, offered1_adv by assumption. destruct (adv_seq_inv _ _ _ _ _ _ _ _ Hi Hv E) as [Hi1 Hq].
      pose proof (dir_adv_seq b A O h alias add remove s s1 i Hi D Hv Hown Hu E) as D1. pose proof (dok_adv_seq b A O h alias add remove s s0 s1 i Hi D Hv Hown Hu K E0 Em E) as K1.
      split; [apply rout_serve; assumption|]. eapply dok_same; [apply (serve_same cfg e i s1 Hi1 Hq)|exact K1].
  - (* concurrent advertise *)
    cbn [handles services_of] in *. specialize (Hown h (or_introl eq_refl)). assert (Hu : Forall (fun x => U (fst (fst x))) add).
    { apply Forall_forall. intros x Hx. apply Hserv, in_map_iff. eauto. } clear Hf.
    apply (advertise_con_cases cfg e h alias dir0 order add remove s (fun x => rout b (advertised1 cfg A (Rcv e (I_concurrent h alias dir0 order add remove))) (offered1 cfg O (Rcv e (I_concurrent h alias dir0 order add remove))) x /\ dok b (fst x))).
    + intros Hv. cbn [advertised1 offered1]. rewrite Hv. cbn [negb]. replace (match dir0 with Dir_reset => A | _ => A end) with A by (destruct dir0; reflexivity). split; [apply rout_nil; exact D|exact K].
    + intros Hv ->. cbn [advertised1 offered1]. rewrite Hv. cbn [negb]. split; [apply rout_nil, dir_remove; assumption|apply dok_remove; assumption].
    + intros Hv -> _. cbn [advertised1 offered1]. rewrite Hv. cbn [negb]. split; [apply rout_nil; exact D|exact K].
    + intros i Hv -> _. cbn [advertised1 offered1]. rewrite Hv. cbn [negb]. pose proof (dir_order b A O s i order D) as [D1 D2 D3 D4 D5 D6 D7]. set (s1 := with_con _ s) in *.
      assert (HA : forall y, AS (map_svc update_prioritized s1) y <-> AS s1 y).
      { intros y. split; apply AS_eq; eauto; intros k v; unfold map_svc; cbn [with_svc s_svc]; rewrite get_map.
        - destruct (get (s_svc s1) k) as [w|]; [|discriminate]. intros [= <-]. exists w. auto.
        - intros ->. eexists. split; [reflexivity|]. auto. }
      split.
      * apply rout_nil. split; auto.
        -- eapply dn_same; [apply same_names_map|exact D1]. reflexivity.
        -- intros y Hy. apply D2, HA, Hy.
        -- intros Hbt y Hy. apply HA. auto.
        -- intros y. rewrite <- D4. split; apply OS_eq; eauto; intros k v; unfold map_svc; cbn [with_svc s_svc]; rewrite get_map.
           ++ destruct (get (s_svc s1) k) as [w|]; [|discriminate]. intros [= <-]. exists w. split; [reflexivity|]. split; [reflexivity|]. intros c Hc. apply (proj1 (cc_sort_in _ _)) in Hc. exact Hc.
           ++ intros ->. eexists. split; [reflexivity|]. split; [reflexivity|]. intros c Hc. apply (proj2 (cc_sort_in _ _)). exact Hc.
        -- intros k v. unfold map_svc. cbn [with_svc s_svc]. rewrite get_map. destruct (get (s_svc s1) k); [|discriminate]. intros [= <-]. apply okv_update.
      * cbn [fst]. apply (dok_weaken b s); [reflexivity|intros j q Hq; exists q; split; [exact Hq|reflexivity]| |exact K]. intros y Hy. apply HA in Hy. revert Hy. apply AS_eq; subst s1; cbn; eauto.
    + intros s1 found rest Hv -> -> Ep. cbn [advertised1 offered1]. rewrite Hv. cbn [negb]. pose proof (dir_adv_con b A O h alias order add remove s Hi D Hv Hown Hu) as D1.
      pose proof (adv_con_inv cfg h alias order add remove s Hi Hv) as Hi1. set (s1 := adv_con cfg h alias order add remove s) in *.
      split; [apply rout_again; [apply inv_pend; exact Hi1|eapply dir_same; [apply same_pend|exact D1]]|].
      eapply dok_same; [apply (again_same cfg e found (with_pend rest s1)), inv_pend, Hi1|]. apply (dok_eq b s1); auto. subst s1. eapply dok_weaken; [apply adv_con_dis| | |exact K].
      * intros j q Hq. exists q. split; [|reflexivity]. rewrite <- Hq. f_equal. unfold adv_con. destruct (find_or_add_con h s) as [s0 k] eqn:E. rewrite (proj2 (proj2 (remove_cons_rest _ _ _))).
        rewrite (fold_eq _ s_seq); [cbn; apply (dir_find_or_add_con h s s0 k Hi E)|]. intros s2 [[n hp] t]. unfold add_con_service. destruct (insert_service cfg _ s2) as [s3 vi] eqn:E3.
        pose proof (f_equal (fun x => s_seq (fst x)) E3) as Hx. cbn [fst] in Hx. rewrite insert_service_seq in Hx. cbn. congruence.
      * intros y. apply adv_con_AS; assumption.
  - cbn [advertised1 offered1]. split; [apply rout_lookup; assumption|apply dok_lookup; assumption].
  - cbn [advertised1 offered1]. assert (Hs : same_dir s (fst (discard ipc corr reply s))).
    { unfold discard. destruct (extract_first _ _) as [[p rest]|]; cbn [fst]; [apply same_pend|]. apply same_discard. intros q. destruct (_ && _); reflexivity. }
    split; [|eapply dok_same; eauto]. split; [eapply dir_same; eauto|]. unfold discard. destruct (extract_first _ _) as [[p rest]|]; destruct reply; cbn [snd]; repeat constructor.
  - cbn [advertised1 offered1]. clear Hf. unfold ack.
    assert (Hn : same_dir (with_late (s_late (fst (notify_tm (h_pid h) trid (dead_remove corr s)))) s) (fst (notify_tm (h_pid h) trid (dead_remove corr s))) /\ Forall (routed b A O) (snd (notify_tm (h_pid h) trid (dead_remove corr s)))).
    { pose proof (same_dead_remove corr s) as [S1 S2 S3 S4 S5 S6 S7]. unfold notify_tm. destruct (negb trid); [split; [split; auto|constructor]|].
      destruct (extract_first _ _) as [[x l]|]; (split; [split; auto|]); cbn [snd]; repeat constructor. }
    pose proof (ack_state_inv corr h trid s Hi) as Hi1. destruct Hn as [Hs Hr]. destruct (notify_tm (h_pid h) trid (dead_remove corr s)) as [s1 o1]. cbn [fst snd] in *.
    assert (D1 : dir b A O s1) by (eapply dir_same; [exact Hs|apply dir_late; exact D]).
    assert (K1 : dok b s1) by (eapply dok_same; [exact Hs|apply (dok_eq b s); auto]).
    rewrite then_eq. cbn [fst]. unfold rout. cbn [fst snd]. rewrite Forall_app.
    destruct (find_seq (h_ipc h) s1) as [i|] eqn:Ef; [|cbn [fst snd]; split; [split; [exact D1|split; [exact Hr|constructor]]|exact K1]].
    destruct (find_seq_some _ _ _ Ef) as (q & Hq & _). assert (Hsf : same_dir s1 (with_seq (upd i q_free (s_seq s1)) s1)) by (apply same_upd; reflexivity).
    cbn [with_seq s_disabled s_fan]. destruct (mem i (s_disabled s1)).
    + destruct (flive_reply corr (h_pid h) (s_fan s1) (i_fan _ Hi1)) as (f & ds & -> & Hfl). cbn [fst snd]. split; [split; [|split; [exact Hr|apply shutdown_routed]]|].
      * pose proof (dir_same b A O _ _ Hsf D1) as [X1 X2 X3 X4 X5 X6 X7]. split; auto. apply (dn_same cfg U (with_seq (upd i q_free (s_seq s1)) s1)); [apply same_names_eq; reflexivity|exact X1].
      * apply (dok_eq b (with_seq (upd i q_free (s_seq s1)) s1)); auto. eapply dok_same; eauto.
    + pose proof (rout_serve b A O e i _ (inv_free s1 i Hi1) (dir_same b A O _ _ Hsf D1)) as [R1 R2].
      { cbn [with_seq s_seq]. rewrite get_upd, Nat.eqb_refl, Hq. eexists. reflexivity. }
      split; [split; [exact R1|split; [exact Hr|exact R2]]|]. eapply dok_same; [|exact K1]. eapply same_trans; [exact Hsf|]. apply serve_same; [apply inv_free; exact Hi1|].
      cbn [with_seq s_seq]. rewrite get_upd, Nat.eqb_refl, Hq. eexists. reflexivity.
  - cbn [advertised1 offered1]. clear Hf. unfold process_exit. pose proof (flive_failed pid _ (i_fan _ Hi)) as Hf. destruct (fan_failed pid (s_fan s)) as [f ds]. cbn [fst] in Hf.
    assert (Df : dir b A O (with_fan f s)). { destruct D as [D1 D2 D3 D4 D5 D6 D7]. split; auto. apply (dn_same cfg U s); [apply same_names_eq; reflexivity|exact D1]. }
    assert (Kf : dok b (with_fan f s)) by (apply (dok_eq b s); auto).
    pose proof (inv_fan s f Hi Hf) as Hif. pose proof (inv_remove_process (fun x => h_pid x =? pid) _ Hif) as Hr.
    pose proof (dir_remove b A O _ (fun x => h_pid x =? pid) Hif Df) as D1. pose proof (dok_remove b (fun x => h_pid x =? pid) _ Hif Kf) as K1.
    destruct (remove_process _ _) as [s1 cs]. cbn [fst] in Hr, D1, K1. set (s2 := with_pend [] (with_late _ s1)).
    assert (Hi2 : inv s2) by (apply inv_pend, inv_late; exact Hr).
    assert (D2 : dir b (withdraw (fun x => h_pid x =? pid) A) (withdraw (fun x => h_pid x =? pid) O) s2) by (eapply dir_same; [apply same_pend|apply dir_late; exact D1]).
    assert (K2 : dok b s2) by (apply (dok_eq b s1); auto).
    rewrite then_eq. cbn [with_late s_pend] in *. destruct (rout_again b _ _ e (s_pend s1) s2 Hi2 D2) as [R1 R2].
    split; [split; [exact R1|]|].
    + cbn [snd]. rewrite !Forall_app. split; [split; [apply shutdown_routed|]|exact R2]. apply Forall_forall. intros x Hx. apply in_map_iff in Hx. destruct Hx as (c & <- & _). exact I.
    + cbn [fst]. eapply dok_same; [apply again_same; exact Hi2|exact K2].
  - cbn [advertised1 offered1]. unfold timeout in *. rewrite then_fst, then_snd in *. set (s0 := with_dead _ s) in *.
    assert (D0 : dir b A O s0) by (eapply dir_same; [apply same_dead|exact D]). assert (K0 : dok b s0) by (apply (dok_eq b s); auto).
    destruct (expires b A O (dead_expired (e_now e) (s_dead s)) s0 D0) as (E1 & E2 & E3). apply not_fatal_app in Hf. destruct Hf as [Hf _]. specialize (E3 Hf K0).
    unfold rout. rewrite then_fst, then_snd. destruct (dead_rest _ _) as [|x l]; cbn [fst snd]; rewrite ?app_nil_r; (split; [split|]); auto.
    eapply dir_same; [apply same_timer|exact E1].
  - cbn [advertised1 offered1]. clear Hf. assert (Hbf : b = false) by (destruct b; [destruct (Hb eq_refl)|reflexivity]). subst b. unfold prepare.
    destruct (prepare_each hs s) as [[[[s1 ns] is] us] ok] eqn:Ep. destruct (prepare_each_inv _ _ _ _ _ _ _ Hi Ep) as (Hi1 & -> & Hsq & _). cbv zeta.
    pose proof (prepare_each_dir _ _ _ _ _ _ _ _ _ Hi D Ep) as D1. destruct (prepare_each_is _ _ _ _ _ _ _ Ep) as [Hdis His]. specialize (His Hi).
    set (A' := withdraw _ A) in *. destruct (partition _ _) as [found rest] eqn:Epa.
    assert (K1 : dok false s1).
    { destruct K as [K _]. split; [|discriminate]. intros j Hj. rewrite Hdis in Hj. destruct (K j Hj) as (q & Hq & Hn). exists q. rewrite Hsq. split; [exact Hq|]. intros o HA. apply (Hn o).
      assert (Hmono : forall hs s s' ns is us ok, prepare_each hs s = (s', ns, is, us, ok) -> forall y, AS s' y -> AS s y).
      { clear. induction hs as [|h hs IH]; intros s s' ns is us ok H y HA; cbn [prepare_each] in H; [injection H as <- <- <- <- <-; exact HA|].
        destruct (find_seq (h_ipc h) s) as [i|].
        - assert (G : forall x, (forall y, AS (fst (fst x)) y -> AS s y) -> (let '(s1, ns, ok1) := x in let '(s2, ns2, is2, us2, ok2) := prepare_each hs s1 in (s2, ns ++ ns2, i :: is2, us2, ok1 && ok2)) = (s', ns, is, us, ok) -> AS s y).
          { intros [[s1 ns1] ok1] Hx Hp. cbn [fst] in Hx. destruct (prepare_each hs s1) as [[[[s2 ns2] is2] us2] ok2] eqn:Er. injection Hp as <- <- <- <- <-. apply Hx. eapply IH; eauto. }
          eapply G; [|exact H]. intros z Hz. destruct (get (s_seq s) i) as [q|]; [|exact Hz]. destruct (prepare_services i (q_serv q) s) as [[s1 ns1] ok1] eqn:Ep. cbn [fst] in Hz.
          unfold prepare_services in Ep. pose proof (prepare_services_dir _ _ _ _ _ _ _ _ Ep) as (_ & P2 & _ & P4 & _).
          destruct Hz as (k & v & j & p & B & C & E & F & G'). destruct (P4 _ _ B) as (v0 & B0 & N & _ & _ & S). rewrite P2 in F. exists k, v0, j, p. repeat split; try congruence. apply S. exact E.
        - destruct (prepare_each hs s) as [[[[s2 ns2] is2] us2] ok2] eqn:Er. injection H as <- <- <- <- <-. eapply IH; eauto. }
      eapply Hmono; eauto. }
    assert (Hp1 : inv (with_pend rest s1)) by (apply inv_pend; exact Hi1).
    assert (Dp1 : dir false A' O (with_pend rest s1)) by (eapply dir_same; [apply same_pend|exact D1]).
    destruct (rout_again false A' O e found _ Hp1 Dp1) as [R1 R2]. destruct (again_same cfg e found _ Hp1) as [Hsa _].
    assert (K2 : dok false (fst (lookup_again cfg e found (with_pend rest s1)))) by (eapply dok_same; [exact Hsa|]; apply (dok_eq false s1); auto).
    destruct (lookup_again cfg e found (with_pend rest s1)) as [s2 o2]. cbn [fst snd] in *. rewrite then_eq. cbn [fst].
    set (now := match filter _ is with [] => match us with [] => [] | _ => _ end | _ => _ end).
    assert (Hn : Forall (routed false A' O) now).
    { subst now. destruct (filter (fun i => negb (seq_busy i s2)) is); [destruct us|]; repeat constructor. }
    unfold rout. cbn [fst snd]. destruct (filter (fun i => seq_busy i s2) is) as [|x xs] eqn:Eb.
    + cbn [fst snd]. split; [|exact K2]. split; [exact R1|]. apply Forall_app. auto.
    + destruct (fan_start _ _ _) as [f ds]. cbn [fst snd]. split.
      * split; [|apply Forall_app; split; [exact R2|apply Forall_app; split; [exact Hn|apply shutdown_routed]]]. destruct R1 as [X1 X2 X3 X4 X5 X6 X7]. split; auto.
        apply (dn_same cfg U s2); [apply same_names_eq; reflexivity|exact X1].
      * destruct K2 as [K2 _]. split; [|discriminate]. intros j Hj. cbn [with_fan with_disabled s_disabled] in Hj. apply in_app_or in Hj.
        assert (H2 : exists q, get (s_seq s2) j = Some q /\ forall o, ~ AS s2 (q_proc q, o)); [|exact H2].
        destruct Hj as [Hj|Hj]; [exact (K2 j Hj)|]. assert (Hj' : In j is) by (rewrite <- Eb in Hj; apply filter_In in Hj; tauto).
        destruct (His j Hj') as (q & Hq & Ex). rewrite <- Hsq in Hq. change (get (s_seq (with_pend rest s1)) j = Some q) in Hq.
        destruct (same_get2 _ _ _ _ Hsa Hq) as (q' & Hq' & Epq & _). exists q'. split; [exact Hq'|]. intros o HA. apply (dd_a1 _ _ _ _ R1) in HA. apply filter_In in HA. destruct HA as [_ HA].
        cbn [fst] in HA. rewrite <- Epq, Ex in HA. discriminate.
  - cbn [advertised1 offered1]. clear Hf. assert (Hs : dir b A O (disassociate gtrid s)) by (eapply dir_same; [apply same_assoc|exact D]). split; [apply rout_nil; exact Hs|]. cbn [fst]. apply (dok_eq b s); auto.
  - cbn [advertised1 offered1]. clear Hf. unfold discovered. destruct (extract_first _ _) as [[p rest]|]; [|split; [apply rout_nil; exact D|exact K]]. cbv zeta.
    assert (D1 : dir b A O (with_pend rest s)) by (eapply dir_same; [apply same_pend|exact D]). assert (K1 : dok b (with_pend rest s)) by (apply (dok_eq b s); auto).
    match goal with |- context [if ?x then _ else _] => destruct x eqn:Ex end; [split; [apply rout_lookup; [apply inv_pend; exact Hi|exact D1]|apply dok_lookup; [apply inv_pend; exact Hi|exact K1]]|].
    assert (Hr : routed b A O (O_absent (fst p))).
    { eapply unserved_routed; [exact D|]. intros vi v Hl Hv. rewrite Hl, Hv in Ex. apply negb_false_iff in Ex. unfold v_empty in Ex. apply andb_prop in Ex. destruct Ex as [X1 X2].
      apply negb_true_iff in X1, X2. split; [exact X1|]. intros _. unfold prioritized. unfold has_conc in X2. destruct (v_conc v); [|discriminate]. apply firstn_nil. }
    destruct (r_sem (fst p)); (split; [|assumption]); (split; [assumption|]); cbn [snd]; solve [constructor|constructor; [exact Hr|constructor]].
  - cbn [advertised1 offered1]. unfold lost. split; [split; [eapply dir_same; [apply same_undeliverable|exact D]|repeat constructor]|]. cbn [fst]. eapply dok_same; [apply same_undeliverable|exact K].
Qed.

Lemma start_dir b conf : (forall n t f, In (n, t, f) conf -> U n) -> dir b [] [] (start cfg conf) /\ dok b (start cfg conf).
Proof.
  intros Hc.
  assert (G : forall l s, (forall n t f, In (n, t, f) l -> U n) -> inv s /\ dn cfg U s /\ s_seq s = [] /\ s_con s = [] /\ s_disabled s = [] /\
      (forall k v, get (s_svc s) k = Some v -> v_seq v = [] /\ v_conc v = [] /\ v_prio v = 0%nat) ->
    let s' := fold_left (fun s x => let '(n, t, f) := x in fst (insert_service cfg (mk_v n t f [] [] 0) s)) l s in
    dn cfg U s' /\ s_seq s' = [] /\ s_con s' = [] /\ s_disabled s' = [] /\ (forall k v, get (s_svc s') k = Some v -> v_seq v = [] /\ v_conc v = [] /\ v_prio v = 0%nat)).
  { induction l as [|[[n t] f] l IH]; intros s Hl (Hi & H1 & H2 & H3 & H4 & H5); cbn [fold_left]; [tauto|]. apply IH; [intros; eapply Hl; right; eauto|].
    destruct (insert_service cfg (mk_v n t f [] [] 0) s) as [s' vi] eqn:E. cbn [fst]. pose proof (insert_service_grows _ _ _ _ _ Hi E) as Gr.
    split; [eapply inv_grows; [| |exact Gr|exact Hi]; reflexivity|]. destruct (insert_dn cfg U HU (mk_v n t f [] [] 0) s s' vi H1 (Hl n t f (or_introl eq_refl)) E) as [Hd _].
    split; [exact Hd|]. rewrite (gr_seq _ _ _ _ Gr), (gr_con _ _ _ _ Gr). split; [exact H2|]. split; [exact H3|].
    split; [pose proof (insert_dis (mk_v n t f [] [] 0) s) as Ed; rewrite E in Ed; cbn [fst] in Ed; congruence|].
    intros k v Hv. destruct (grows_get _ _ _ _ _ _ Gr Hv) as [Hs | [_ ->]]; [eauto|auto]. }
  destruct (G conf empty Hc) as (G1 & G2 & G3 & G4 & G5).
  - split; [apply inv_empty|]. split; [|cbn; split; [reflexivity|split; [reflexivity|split; [reflexivity|]]]; intros k v Hv; unfold get in Hv; cbn in Hv; destruct k; discriminate].
    split; cbn; intros; try (unfold get in *; cbn in *; destruct vi; discriminate).
  - fold (start cfg conf) in G1, G2, G3, G4, G5. split.
    + split; auto.
      * intros y (k & v & i & q & B & C & E & _). destruct (G5 k v B) as (E1 & _). rewrite E1 in E. destruct E.
      * intros _ y [].
      * intros y. split; [|intros []]. intros (k & v & i & q & B & C & E & _). destruct (G5 k v B) as (_ & E1 & _). rewrite E1 in E. destruct E.
      * rewrite G2. intros i q Hq. unfold get in Hq. destruct i; discriminate.
      * rewrite G3. intros i q Hq. unfold get in Hq. destruct i; discriminate.
      * intros k v Hv. destruct (G5 k v Hv) as (_ & E1 & E2). split; [rewrite E1; constructor|]. unfold prioritize. cbn [v_prio]. rewrite E1, E2. reflexivity.
    + split; [rewrite G4; intros i []|auto].
Qed.

Lemma fold_advertised_eff A l : fold_left (advertised1 cfg) (map Eff l) A = A.
Proof. revert A. induction l as [|x l IH]; intros A; cbn [map fold_left]; [reflexivity|]. apply IH. Qed.
Lemma fold_offered_eff A l : fold_left (offered1 cfg) (map Eff l) A = A.
Proof. revert A. induction l as [|x l IH]; intros A; cbn [map fold_left]; [reflexivity|]. apply IH. Qed.

Lemma run_dir b l : forall A O s, inv s -> dir b A O s -> dok b s -> (forall e i, In (e, i) l -> ok_input b i) ->
  (forall pid, ~ In (Eff (O_assassinate pid true)) (snd (run cfg l s))) ->
  (dir b (fold_left (advertised1 cfg) (snd (run cfg l s)) A) (fold_left (offered1 cfg) (snd (run cfg l s)) O) (fst (run cfg l s)) /\ dok b (fst (run cfg l s))) /\
  forall t1 x t2, snd (run cfg l s) = t1 ++ Eff x :: t2 -> routed b (fold_left (advertised1 cfg) t1 A) (fold_left (offered1 cfg) t1 O) x.
Proof.
  induction l as [|[e i] l IH]; intros A O s Hi D K Hok Hf; cbn [run]; [split; [split; [exact D|exact K]|]; intros [|y t1] x t2 H; discriminate|].
  cbn [run] in Hf. pose proof (step_good cfg e i s Hi) as [Hi1 _]. pose proof (step_dir b A O e i s Hi D K (Hok e i (or_introl eq_refl))) as Hs.
  destruct (step cfg e i s) as [s1 o]. cbn [fst snd] in *. destruct (run cfg l s1) as [s2 t] eqn:E. cbn [fst snd] in *.
  assert (Hf1 : not_fatal o). { intros p Hp. apply (Hf p). right. apply in_or_app. left. apply in_map. exact Hp. }
  destruct (Hs Hf1) as [[R1 R2] K1]. cbn [fst snd] in *. specialize (IH _ _ s1 Hi1 R1 K1 (fun e' i' H => Hok e' i' (or_intror H))). rewrite E in IH. cbn [fst snd] in IH.
  destruct IH as [I1 I2]; [intros p Hp; apply (Hf p); right; apply in_or_app; right; exact Hp|].
  cbn [fold_left]. rewrite !fold_left_app, fold_advertised_eff, fold_offered_eff. split; [exact I1|].
  intros [|y t1] x t2 H; cbn [app] in H; [discriminate|]. injection H as <- H. cbn [fold_left].
  apply app_eq_app in H. destruct H as (m & [[H1 H2]|[H1 H2]]).
  - apply eq_sym in H1. destruct m as [|z m].
    + cbn [app] in H2. rewrite app_nil_r in H1. subst t1. rewrite fold_advertised_eff, fold_offered_eff. apply (I2 [] x t2). symmetry. exact H2.
    + cbn [app] in H2. injection H2 as <- H2. assert (Ht1 : exists o1, t1 = map Eff o1 /\ In x o).
      { clear - H1. revert t1 H1. induction o as [|w o IHo]; intros t1 H1; [destruct t1; discriminate|]. destruct t1 as [|y t1]; cbn [app map] in H1.
        - injection H1 as <- _. exists []. split; [reflexivity|left; reflexivity].
        - injection H1 as -> H1. destruct (IHo t1 H1) as (o1 & -> & Hin). exists (w :: o1). split; [reflexivity|right; exact Hin]. }
      destruct Ht1 as (o1 & -> & Hin). rewrite fold_advertised_eff, fold_offered_eff. rewrite Forall_forall in R2. auto.
  - subst t1. rewrite !fold_left_app, fold_advertised_eff, fold_offered_eff. apply (I2 m x t2). exact H2.
Qed.
End Route.
