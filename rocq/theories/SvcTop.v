(* The theorems about whole histories, for a start from any configuration. *)
From Coq Require Import ZArith List Bool Lia.
From Verif Require Import FanModel SvcModel SvcSpec SvcLemmas SvcInv SvcStep SvcRes SvcCount SvcDir SvcRoute SvcWake SvcCall.
Import ListNotations.
Local Open Scope Z_scope.

Lemma proper_ok cfg conf l s t (b : bool) : run cfg l (start cfg conf) = (s, t) -> proper cfg conf l -> (b = true -> no_prepare t) ->
  exists owner, unambiguous cfg (known conf l) /\ (forall n t f, In (n, t, f) conf -> known conf l n) /\ forall e i, In (e, i) l -> ok_input (known conf l) owner b i.
Proof.
  intros Hr (HU & owner & Ho) Hp. exists owner. split; [exact HU|]. split; [intros n t0 f H; left; eauto|]. intros e i Hin. split; [intros h; eapply Ho; eauto|].
  split; [intros o Hs; right; eauto|]. intros Hb. destruct i; auto. eapply (Hp Hb), run_received; eauto.
Qed.

Lemma top_dir cfg conf l s t b : run cfg l (start cfg conf) = (s, t) -> proper cfg conf l -> (b = true -> no_prepare t) -> no_kill t ->
  exists owner, dir cfg (known conf l) owner b (advertised cfg t) (offered cfg t) s /\
  forall t1 x t2, t = t1 ++ Eff x :: t2 -> routed cfg (known conf l) b (advertised cfg t1) (offered cfg t1) x.
Proof.
  intros Hr Hp Hb Hk. destruct (proper_ok cfg conf l s t b Hr Hp Hb) as (owner & HU & Hc & Hok). exists owner.
  destruct (start_dir cfg (known conf l) owner HU b conf Hc) as [D K].
  pose proof (run_dir cfg (known conf l) owner HU b l [] [] _ (start_inv cfg conf) D K Hok) as G. rewrite Hr in G. cbn [fst snd] in G. destruct (G Hk) as [[G1 _] G2]. split; [exact G1|exact G2].
Qed.

Theorem advertised_only cfg conf l s t t1 r h d t2 : run cfg l (start cfg conf) = (s, t) -> proper cfg conf l -> no_kill t ->
  t = t1 ++ Eff (O_idle r (D_seq h) d) :: t2 -> exists o, In (r_name r) (names cfg o) /\ In (h, o) (advertised cfg t1).
Proof. intros Hr Hp Hk Ht. destruct (top_dir cfg conf l s t false Hr Hp ltac:(discriminate) Hk) as (owner & _ & G). exact (G t1 _ t2 Ht). Qed.

Theorem smallest_order cfg conf l s t t1 r h d t2 : run cfg l (start cfg conf) = (s, t) -> proper cfg conf l -> no_kill t ->
  t = t1 ++ Eff (O_idle r (D_con h) d) :: t2 ->
  exists o a k, In (r_name r) (names cfg o) /\ In (h, (o, a, k)) (offered cfg t1) /\ forall h' a' k', In (h', (o, a', k')) (offered cfg t1) -> a < a' \/ (a = a' /\ k <= k').
Proof. intros Hr Hp Hk Ht. destruct (top_dir cfg conf l s t false Hr Hp ltac:(discriminate) Hk) as (owner & _ & G). destruct (G t1 _ t2 Ht) as (_ & o & a & k & H1 & H2 & H3 & _). eauto 8. Qed.

Theorem local_first cfg conf l s t t1 r h d t2 : run cfg l (start cfg conf) = (s, t) -> proper cfg conf l -> no_kill t -> no_prepare t ->
  t = t1 ++ Eff (O_idle r (D_con h) d) :: t2 -> r_req r <> External /\ forall o h', known conf l o -> In (r_name r) (names cfg o) -> ~ In (h', o) (advertised cfg t1).
Proof.
  intros Hr Hp Hk Hn Ht. destruct (top_dir cfg conf l s t true Hr Hp (fun _ => Hn) Hk) as (owner & D & G). destruct (G t1 _ t2 Ht) as (He & o & a & k & H1 & H2 & _ & H4). split; [exact He|].
  intros o' h' Ho' Hn' Hin. destruct Hp as (HU & _). apply (H4 eq_refl h'). replace o with o'; [exact Hin|].
  apply (HU o' o (r_name r)); auto; [|right; exact Hn']. clear - H2 Hr Ht.
  assert (Hall : forall t A, (forall h o a k, In (h, (o, a, k)) A -> known conf l o) -> (forall e i, In (Rcv e i) t -> In (e, i) l) -> forall h o a k, In (h, (o, a, k)) (fold_left (offered1 cfg) t A) -> known conf l o).
  { clear. induction t as [|x t IH]; intros A HA Hl h o a k; cbn [fold_left]; [apply HA|]. apply IH; [|intros; apply Hl; right; assumption].
    clear h o a k. intros h o a k. assert (Hw : forall p, In (h, (o, a, k)) (withdraw p A) -> known conf l o) by (intros p H; apply filter_In in H; eapply HA, H).
    destruct x as [e i|y]; [|apply HA]. destruct i; cbn [offered1]; try apply HA; try apply Hw.
    - destruct add; [destruct remove|]; try apply HA. destruct (h_valid h0); [apply Hw|apply HA].
    - destruct (negb (h_valid h0)); [apply HA|]. destruct dir; [|apply Hw|apply HA]. intros H. apply filter_In in H. destruct H as [H _].
      assert (Hadd : forall x, In x (filter (fun x => g_allow cfg alias (fst (fst x))) add) -> known conf l (fst (fst x))).
      { intros x Hx. apply filter_In in Hx. right. exists e, (I_concurrent h0 alias Dir_update order add remove). split; [apply Hl; left; reflexivity|]. cbn. apply (in_map (fun x => fst (fst x))), Hx. }
      revert H Hadd. generalize (filter (fun x : Z * Z * Z => g_allow cfg alias (fst (fst x))) add). intros xs. clear - HA. revert A HA. induction xs as [|[[n hp] tm] xs IHx]; intros A HA; cbn [fold_left]; [intros H _; eapply HA, H|].
      intros H Hadd. eapply (IHx _ _ H). intros; apply Hadd; right; assumption.
      Unshelve. intros h1 o1 a1 k1. unfold offer. destruct (knows _ _ _); [apply HA|]. intros H1. apply in_app_or in H1. destruct H1 as [H1 | [H1 | []]]; [eapply HA, H1|].
      injection H1 as _ <- _ _. apply (Hadd (n, hp, tm)). left. reflexivity. }
  eapply (Hall t1 []); [intros ? ? ? ? []| |exact H2]. intros e i Hin.
  assert (Hsnd : In (Rcv e i) (snd (run cfg l (start cfg conf)))) by (rewrite Hr; cbn [snd]; subst t; apply in_or_app; left; exact Hin).
  clear - Hsnd. revert Hsnd. generalize (start cfg conf). induction l as [|[e' i'] l IH]; intros s0; cbn [run]; [intros []|]. destruct (step cfg e' i' s0) as [s1 o]. specialize (IH s1).
  destruct (run cfg l s1) as [s2 t]. cbn [snd] in *. intros [H|H]; [left; injection H as <- <-; reflexivity|right]. apply IH. apply in_app_or in H. destruct H as [H|H]; [|exact H].
  apply in_map_iff in H. destruct H as (? & ? & _). discriminate.
Qed.

Theorem absent_only cfg conf l s t t1 r t2 : run cfg l (start cfg conf) = (s, t) -> proper cfg conf l -> no_kill t -> no_prepare t ->
  t = t1 ++ Eff (O_absent r) :: t2 -> forall o, known conf l o -> In (r_name r) (names cfg o) ->
  (forall h, ~ In (h, o) (advertised cfg t1)) /\ (r_req r <> External -> forall h a k, ~ In (h, (o, a, k)) (offered cfg t1)).
Proof. intros Hr Hp Hk Hn Ht o Ho Hin. destruct (top_dir cfg conf l s t true Hr Hp (fun _ => Hn) Hk) as (owner & _ & G). destruct (G t1 _ t2 Ht o Ho Hin) as [H1 H2]. split; auto. Qed.

(* ---------------------------------------------------------------- no lost wakeup *)
Lemma calm_quiets t : calm t -> quiets [] t.
Proof.
  intros H. assert (G : forall t2 t1, (forall a x b, t1 ++ t2 = a ++ x :: b -> (length t1 <= length a)%nat ->
      match x with Rcv _ (I_prepare _ _) | Eff (O_lost _) | Eff (O_assassinate _ true) => False | Rcv _ (I_discard _ c _) => c <> 0 /\ forall h, ~ In (h, c) (reserved a) | _ => True end) -> quiets (reserved t1) t2).
  { induction t2 as [|x t2 IH]; intros t1 H0; cbn [quiets]; [exact I|]. split; [apply (H0 t1 x t2); [reflexivity|lia]|].
    replace (reserve1 (reserved t1) x) with (reserved (t1 ++ [x])) by (unfold reserved; rewrite fold_left_app; reflexivity). apply IH. intros a y b E Hl. apply (H0 a y b).
    - rewrite <- app_assoc in E. exact E.
    - rewrite app_length in Hl. cbn in Hl. lia. }
  apply (G t []). intros a x b E _. apply (H a x b). exact E.
Qed.
Lemma calm_prepare t : calm t -> no_prepare t.
Proof. intros H e ipc hs Hin. apply in_split in Hin. destruct Hin as (a & b & ->). exact (H a _ b eq_refl). Qed.
Lemma calm_kill t : calm t -> no_kill t.
Proof. intros H pid Hin. apply in_split in Hin. destruct Hin as (a & b & ->). exact (H a _ b eq_refl). Qed.

Lemma top_wake cfg conf l s t : run cfg l (start cfg conf) = (s, t) -> proper cfg conf l -> calm t ->
  exists owner, inv s /\ dir cfg (known conf l) owner true (advertised cfg t) (offered cfg t) s /\ s_disabled s = [] /\ pb cfg nobody (advertised cfg t) s /\ full s /\ covers2 (reserved t) s.
Proof.
  intros Hr Hp Hc. destruct (proper_ok cfg conf l s t true Hr Hp (fun _ => calm_prepare _ Hc)) as (owner & HU & Hcf & Hok). exists owner.
  destruct (start_dir cfg (known conf l) owner HU true conf Hcf) as [D K].
  assert (Hi : inv s). { pose proof (run_inv cfg l (start cfg conf) (start_inv cfg conf)) as Hi. rewrite Hr in Hi. apply Hi. }
  split; [exact Hi|].
  pose proof (run_dir cfg (known conf l) owner HU true l [] [] _ (start_inv cfg conf) D K Hok) as G. rewrite Hr in G. cbn [fst snd] in G. destruct (G (calm_kill _ Hc)) as [[D1 K1] _]. split; [exact D1|].
  assert (F0 : full (start cfg conf)) by (intros i q vi; rewrite start_seq, get_nil; discriminate).
  assert (P0 : pb cfg nobody [] (start cfg conf)) by (intros p h o _ []).
  assert (C0 : covers2 [] (start cfg conf)) by (intros i q; rewrite start_seq, get_nil; discriminate).
  pose proof (run_wake cfg (known conf l) owner HU l [] [] [] _ (start_inv cfg conf) D K F0 P0 C0 Hok) as W. rewrite Hr in W. cbn [fst snd] in W. destruct (W (calm_quiets _ Hc)) as (W1 & W2 & W3).
  split; [|auto]. apply K1. reflexivity.
Qed.

Theorem no_lost_wakeup cfg conf l s t r h o : run cfg l (start cfg conf) = (s, t) -> proper cfg conf l -> calm t ->
  In r (queued s) -> In (h, o) (advertised cfg t) -> In (r_name r) (names cfg o) -> exists c, In (h, c) (reserved t).
Proof.
  intros Hr Hp Hc Hq HA Hn. destruct (top_wake cfg conf l s t Hr Hp Hc) as (owner & _ & _ & _ & P & _ & C). apply in_map_iff in Hq. destruct Hq as (p & <- & Hp').
  destruct (P p h o Hp' HA Hn) as [[]|(i & q & Hq & <- & Hb)]. destruct (C i q Hq Hb) as (c & Hc' & _). eauto.
Qed.

Lemma extract_first_at {X} f (a : list X) x b : (forall y, In y a -> f y = false) -> f x = true -> extract_first f (a ++ x :: b) = Some (x, a ++ b).
Proof.
  induction a as [|y a IH]; intros Ha Hx; cbn [app extract_first]; [rewrite Hx; reflexivity|]. rewrite (Ha y (or_introl eq_refl)), IH; [reflexivity| |exact Hx]. intros z Hz. apply Ha. right. exact Hz.
Qed.
Lemma dead_remove_keeps c s : s_seq (dead_remove c s) = s_seq s /\ s_pend (dead_remove c s) = s_pend s /\ s_disabled (dead_remove c s) = s_disabled s.
Proof. unfold dead_remove. destruct (s_dead s) as [|x r]; [auto|]. destruct (_ =? _); [destruct r|]; auto. Qed.
Lemma map_split_at {X Y} (f : X -> Y) l a y b : map f l = a ++ y :: b -> exists a' x b', l = a' ++ x :: b' /\ map f a' = a /\ f x = y /\ map f b' = b.
Proof.
  revert a. induction l as [|z l IH]; intros a H; cbn [map] in H; [destruct a; discriminate|]. destruct a as [|w a]; cbn [app] in H; injection H as H1 H2.
  - exists [], z, l. auto.
  - destruct (IH a H2) as (a' & x & b' & -> & E1 & E2 & E3). exists (z :: a'), x, b'. cbn. repeat split; congruence.
Qed.

Theorem oldest_first cfg conf l s t r h o a b e c h' k : run cfg l (start cfg conf) = (s, t) -> proper cfg conf l -> calm t ->
  queued s = a ++ r :: b -> In (h, o) (advertised cfg t) -> In (r_name r) (names cfg o) ->
  (forall r' o', In r' a -> In (h, o') (advertised cfg t) -> ~ In (r_name r') (names cfg o')) -> h_ipc h' = h_ipc h ->
  (exists d, In (O_idle r (D_seq h) d) (snd (step cfg e (I_ack c h' k) s))) /\ queued (fst (step cfg e (I_ack c h' k) s)) = a ++ b.
Proof.
  intros Hr Hp Hc Hq HA Hn Ha Hh. destruct (top_wake cfg conf l s t Hr Hp Hc) as (owner & Hi & D & Hdis & P & F & C).
  destruct (map_split_at _ _ _ _ _ Hq) as (pa & p & pb' & Hpend & Ea & Ep & Eb).
  destruct (dd_a2 _ _ _ _ _ _ _ D eq_refl _ HA) as (vi & v & i & q & Hv & Hvn & Hvi & Hqi & Hqp). cbn [fst snd] in *.
  assert (HP : forall h' o', In (h', o') (advertised cfg t) -> In (r_name r) (names cfg o') -> busy s h').
  { intros h0 o0 X Y. destruct (P p h0 o0) as [[]|Z]; [rewrite Hpend; apply in_or_app; right; left; reflexivity|exact X|rewrite Ep; exact Y|exact Z]. }
  cbn [step]. unfold ack. rewrite then_fst, then_snd.
  assert (Hs1 : exists late, fst (notify_tm (h_pid h') k (dead_remove c s)) = with_late late (dead_remove c s)).
  { unfold notify_tm. destruct (negb k); [exists (s_late (dead_remove c s)); destruct (dead_remove c s); reflexivity|]. destruct (extract_first _ _) as [[x y]|]; [exists y; reflexivity|exists (s_late (dead_remove c s)); destruct (dead_remove c s); reflexivity]. }
  pose proof (ack_state_inv c h' k s Hi) as Hi1. destruct Hs1 as (late & Es1). rewrite Es1 in *. set (s1 := with_late late (dead_remove c s)) in *.
  destruct (dead_remove_keeps c s) as (K1 & K2 & K3).
  assert (D1 : dir cfg (known conf l) owner true (advertised cfg t) (offered cfg t) s1) by (apply dir_late; eapply dir_same; [apply same_dead_remove|exact D]).
  assert (F1 : full s1) by (apply (full_same s (dead_remove c s)); [apply same_dead_remove|exact F]).
  assert (G1 : s_seq s1 = s_seq s) by exact K1. assert (G2 : s_pend s1 = s_pend s) by exact K2. assert (G3 : s_disabled s1 = []) by (change (s_disabled (dead_remove c s) = []); congruence).
  rewrite <- G1 in Hqi. assert (Hf : find_seq (h_ipc h') s1 = Some i).
  { destruct (find_seq (h_ipc h') s1) as [j|] eqn:Ef.
    - destruct (find_seq_some _ _ _ Ef) as (q' & Hq' & Eq'). f_equal. apply (i_ipc _ Hi1 j i q' q); [exact Hq'|exact Hqi|congruence].
    - exfalso. apply (find_seq_none _ _ Ef i q Hqi). congruence. }
  rewrite Hf. cbv zeta. set (s2 := with_seq (upd i q_free (s_seq s1)) s1).
  change (s_disabled s2) with (s_disabled s1). rewrite G3. cbn [mem existsb].
  assert (Hsf : same_dir s1 s2) by (apply same_upd; reflexivity). assert (Hi2 : inv s2) by (apply inv_free; exact Hi1). assert (F2 : full s2) by (eapply full_same; eauto).
  assert (D2 : dir cfg (known conf l) owner true (advertised cfg t) (offered cfg t) s2) by (eapply dir_same; eauto).
  assert (Hq2 : get (s_seq s2) i = Some (q_free q)) by (subst s2; cbn [with_seq s_seq]; rewrite get_upd, Nat.eqb_refl, Hqi; reflexivity).
  assert (HP2 : forall h' o', In (h', o') (advertised cfg t) -> In (r_name r) (names cfg o') -> h' = h \/ busy s2 h').
  { intros h0 o0 X Y. destruct (HP h0 o0 X Y) as (j & q' & B & Ep' & Hb'). rewrite <- G1 in B. destruct (Nat.eq_dec j i) as [->|Hne]; [left; congruence|]. right.
    exists j, q'. subst s2. cbn [with_seq s_seq]. rewrite get_upd. destruct (Nat.eqb_spec j i); [congruence|auto]. }
  assert (Hprov : forall x, provides (q_free q) s2 x = true <-> exists o', In (h, o') (advertised cfg t) /\ In (r_name (fst x)) (names cfg o')).
  { intros x. unfold provides. split.
    - destruct (lookup_name (r_name (fst x)) s2) as [vj|] eqn:En; [|discriminate]. intros Hm. apply mem_In in Hm. destruct (F2 i (q_free q) vj Hq2 Hm) as (v' & Hv' & Hin').
      exists (v_name v'). split; [|eapply dir_lookup_name; eauto]. apply (dd_a1 _ _ _ _ _ _ _ D2). exists vj, v', i, (q_free q). auto.
    - intros (o' & HA' & Hn'). destruct (dd_a2 _ _ _ _ _ _ _ D2 eq_refl _ HA') as (vj & v' & j & q' & B1 & B2 & B3 & B4 & B5). cbn [fst snd] in *.
      rewrite (n_all _ _ _ (dd_n _ _ _ _ _ _ _ D2) vj v'); [|exact B1|rewrite B2; exact Hn']. assert (j = i) by (apply (i_ipc _ Hi2 j i q' (q_free q)); [exact B4|exact Hq2|cbn; congruence]). subst j.
      destruct (i_seq _ Hi2 vj v' i B1 B3) as (q'' & Hq'' & Hs''). assert (q'' = q_free q) by congruence. subst q''. apply mem_In. exact Hs''. }
  unfold serve_first. rewrite Hq2. change (s_pend s2) with (s_pend s1). rewrite G2, Hpend.
  rewrite extract_first_at.
  2:{ intros x Hx. destruct (provides (q_free q) s2 x) eqn:E; [|reflexivity]. apply Hprov in E. destruct E as (o' & X & Y). exfalso. apply (Ha (fst x) o'); [rewrite <- Ea; apply in_map; exact Hx|exact X|exact Y]. }
  2:{ apply Hprov. exists o. split; [exact HA|rewrite Ep; exact Hn]. }
  rewrite Ep. set (s3 := with_pend (pa ++ pb') s2). assert (Hi3 : inv s3) by (apply inv_pend; exact Hi2).
  assert (Hl3 : exists vk w, lookup_name (r_name r) s3 = Some vk /\ get (s_svc s3) vk = Some w /\ In i (v_seq w)).
  { destruct (dd_a2 _ _ _ _ _ _ _ D2 eq_refl _ HA) as (vj & v' & j & q' & B1 & B2 & B3 & B4 & B5). cbn [fst snd] in *. exists vj, v'.
    split; [apply (n_all _ _ _ (dd_n _ _ _ _ _ _ _ D2) vj v'); [exact B1|rewrite B2; exact Hn]|]. split; [exact B1|].
    assert (j = i) by (apply (i_ipc _ Hi2 j i q' (q_free q)); [exact B4|exact Hq2|cbn; congruence]). subst j. exact B3. }
  destruct Hl3 as (vk & w & L1 & L2 & L3).
  pose proof (lookup_looked cfg e r s3 Hi3) as L. destruct (lookup cfg e r s3) as [s4 o4]. cbn [fst snd] in *.
  assert (Hnb : all_busy s3 r -> False).
  { intros Hb. assert (X : idle (q_free q) = false) by (apply (Hb vk w i (q_free q)); auto). discriminate X. }
  inversion L; subst s4 o4; clear L.
  - exfalso. destruct (H vk w L1 L2) as [X _]. eapply has_seq_false; eauto.
  - exfalso. auto.
  - exfalso. auto.
  - exfalso. auto.
  - exfalso. assert (vi0 = vk) by congruence. subst vi0. assert (v0 = w) by congruence. subst v0. eapply has_seq_false; eauto.
  - assert (Eh : q_proc q0 = h).
    { destruct (HP2 (q_proc q0) (v_name v0)) as [X|(j & q' & B1 & B2 & B3)]; [| |exact X|].
      - apply (dd_a1 _ _ _ _ _ _ _ D2). exists vi0, v0, i0, q0. auto.
      - eapply dir_lookup_name; [exact D2|exact H|exact H0].
      - exfalso. assert (j = i0) by (apply (i_ipc _ Hi2 j i0 q' q0); [exact B1|exact H2|congruence]). subst j. change (get (s_seq s2) i0 = Some q0) in H2. congruence. }
    split.
    + exists d. apply in_or_app. right. unfold send_reply. rewrite then_snd. left. rewrite Eh. reflexivity.
    + unfold queued. assert (X : forall s' d' dl', s_pend (fst (send_reply e r d' dl' s')) = s_pend s').
      { intros. unfold send_reply. rewrite then_fst. destruct (e_gone _ _); [|reflexivity]. cbn. unfold undeliverable. destruct (find_seq (h_ipc (r_proc r)) s'); reflexivity. }
      rewrite X, H5. cbn [with_timer with_dead with_seq s_pend]. subst s3. cbn [with_pend s_pend]. rewrite map_app, Ea, Eb. reflexivity.
Qed.

(* ---------------------------------------------------------------- no exception *)
Lemma run_no_raise cfg l : forall s, inv s -> ~ In (Eff O_raise) (snd (run cfg l s)).
Proof.
  induction l as [|[e i] l IH]; intros s Hi; cbn [run]; [intros []|]. destruct (step_good cfg e i s Hi) as [Hi1 Hn]. destruct (step cfg e i s) as [s1 o]. cbn [fst snd] in *. specialize (IH s1 Hi1).
  destruct (run cfg l s1) as [s2 t]. cbn [snd] in *. intros [H|H]; [discriminate|]. apply in_app_or in H. destruct H as [H|H]; [|auto]. apply in_map_iff in H. destruct H as (x & E & Hx). injection E as ->. auto.
Qed.
Theorem never_raises cfg t : history cfg t -> ~ In (Eff O_raise) t.
Proof. intros (conf & l & ->). apply run_no_raise, start_inv. Qed.

(* ---------------------------------------------------------------- for examples: hypotheses that can be computed *)
Definition handles_of (l : list (env * input)) : list handle := flat_map (fun x => handles (snd x)) l.
Definition owner_of (hs : list handle) (ipc : Z) : Z := match find (fun h => h_ipc h =? ipc) hs with Some h => h_pid h | None => 0 end.
Definition owned_b (l : list (env * input)) : bool := forallb (fun h => h_pid h =? owner_of (handles_of l) (h_ipc h)) (handles_of l).
Lemma owned_dec l : owned_b l = true -> exists owner, owned owner l.
Proof.
  intros H. exists (owner_of (handles_of l)). intros e i h Hin Hh. unfold owned_b in H. rewrite forallb_forall in H. apply Z.eqb_eq. apply H. unfold handles_of. apply in_flat_map. exists (e, i). auto.
Qed.
Lemma proper_plain cfg conf l : (forall n, g_routes cfg n = []) -> owned_b l = true -> proper cfg conf l.
Proof.
  intros Hr Ho. split; [|apply owned_dec; exact Ho]. intros o o' n _ _. unfold names. rewrite !Hr. intros [-> | [-> | []]] [-> | []]; reflexivity.
Qed.
Fixpoint calm_b (R : list (handle * Z)) (t : list obs) : bool :=
  match t with
  | [] => true
  | x :: t => match x with
              | Rcv _ (I_prepare _ _) | Eff (O_lost _) | Eff (O_assassinate _ true) => false
              | Rcv _ (I_discard _ c _) => negb (c =? 0) && forallb (fun y => negb (snd y =? c)) R
              | _ => true
              end && calm_b (reserve1 R x) t
  end.
Lemma calm_dec t : calm_b [] t = true -> calm t.
Proof.
  intros H t1 x t2 ->. assert (G : forall t1 R, calm_b R (t1 ++ x :: t2) = true -> match x with
    | Rcv _ (I_prepare _ _) | Eff (O_lost _) | Eff (O_assassinate _ true) => False
    | Rcv _ (I_discard _ c _) => c <> 0 /\ forall h, ~ In (h, c) (fold_left reserve1 t1 R) | _ => True end).
  { clear. induction t1 as [|y t1 IH]; intros R H; cbn [app calm_b fold_left] in *; apply andb_prop in H; destruct H as [H1 H2]; [|apply IH; exact H2].
    destruct x as [e i|o]; [destruct i|destruct o]; try discriminate; auto.
    - apply andb_prop in H1. destruct H1 as [H1 H3]. split; [intros ->; discriminate|]. intros h Hin. rewrite forallb_forall in H3. specialize (H3 _ Hin). cbn in H3. rewrite Z.eqb_refl in H3. discriminate.
    - destruct fatal; [discriminate|exact I]. }
  exact (G t1 [] H).
Qed.
