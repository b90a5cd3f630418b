(* Reservations: the history determines which instances are busy. *)
From Coq Require Import ZArith List Bool Lia.
From Verif Require Import FanModel SvcModel SvcSpec SvcLemmas SvcInv SvcStep.
Import ListNotations.
Local Open Scope Z_scope.

(* busy instances stay busy, for the same call or a consumed one *)
Definition keeps (s s' : state) : Prop :=
  forall i q, get (s_seq s) i = Some q -> idle q = false -> exists q', get (s_seq s') i = Some q' /\ q_proc q' = q_proc q /\ idle q' = false /\
    (q_call q' = q_call q \/ q_call q' = c_nil).
(* no instance becomes busy *)
Definition frees (s s' : state) : Prop :=
  forall i q', get (s_seq s') i = Some q' -> idle q' = false -> exists q, get (s_seq s) i = Some q /\ q_proc q' = q_proc q /\ idle q = false.

Lemma keeps_refl s : keeps s s. Proof. intros i q H1 H2. eauto 6. Qed.
Lemma keeps_trans a b c : keeps a b -> keeps b c -> keeps a c.
Proof.
  intros H1 H2 i q Hq Hb. destruct (H1 i q Hq Hb) as (q1 & Hq1 & Hp1 & Hb1 & Hc1). destruct (H2 i q1 Hq1 Hb1) as (q2 & Hq2 & Hp2 & Hb2 & Hc2).
  exists q2. split; [exact Hq2|]. split; [congruence|]. split; [exact Hb2|]. destruct Hc2 as [-> | ->]; auto.
Qed.
Lemma frees_refl s : frees s s. Proof. intros i q H1 H2. eauto. Qed.
Lemma frees_trans a b c : frees a b -> frees b c -> frees a c.
Proof.
  intros H1 H2 i q Hq Hb. destruct (H2 i q Hq Hb) as (q1 & Hq1 & Hp1 & Hb1). destruct (H1 i q1 Hq1 Hb1) as (q2 & Hq2 & Hp2 & Hb2).
  exists q2. split; [exact Hq2|]. split; [congruence|exact Hb2].
Qed.
Lemma keeps_eq s s' : s_seq s' = s_seq s -> keeps s s'. Proof. intros E i q. rewrite E. eauto 6. Qed.
Lemma frees_eq s s' : s_seq s' = s_seq s -> frees s s'. Proof. intros E i q. rewrite E. eauto. Qed.

Definition quiet (f : seqi -> seqi) : Prop := forall q, q_proc (f q) = q_proc q /\ q_resv (f q) = q_resv q /\ (q_call (f q) = q_call q \/ q_call (f q) = c_nil).
Lemma keeps_upd s i f : quiet f -> keeps s (with_seq (upd i f (s_seq s)) s).
Proof.
  intros Hf j q Hq Hb. cbn. rewrite get_upd. destruct (Nat.eqb_spec j i) as [->|]; [|eauto 6]. rewrite Hq. destruct (Hf q) as (H1 & H2 & H3).
  eexists. split; [reflexivity|]. split; [exact H1|]. split; [unfold idle in *; rewrite H2; exact Hb|exact H3].
Qed.
Lemma frees_upd s i f : (forall q, q_proc (f q) = q_proc q /\ (q_resv (f q) = q_resv q \/ q_resv (f q) = None)) -> frees s (with_seq (upd i f (s_seq s)) s).
Proof.
  intros Hf j q Hq Hb. cbn in Hq. rewrite get_upd in Hq. destruct (Nat.eqb_spec j i) as [->|]; [|eauto]. destruct (get (s_seq s) i) as [q0|]; [|discriminate].
  injection Hq as <-. destruct (Hf q0) as [H1 H2]. exists q0. split; [reflexivity|]. split; [exact H1|]. unfold idle in *. destruct H2 as [H2|H2]; rewrite H2 in Hb; [exact Hb|discriminate].
Qed.

(* every reservation of the history is a busy instance *)
Definition tracks (R : list (handle * Z)) (s : state) : Prop :=
  forall h c, In (h, c) R -> exists i q, get (s_seq s) i = Some q /\ q_proc q = h /\ idle q = false /\ (c_corr (q_call q) = c \/ q_call q = c_nil).
(* every busy instance is a reservation of the history *)
Definition covers (R : list (handle * Z)) (s : state) : Prop :=
  forall i q, get (s_seq s) i = Some q -> idle q = false -> exists c, In (q_proc q, c) R.

Lemma tracks_keeps R s s' : keeps s s' -> tracks R s -> tracks R s'.
Proof.
  intros K T h c Hin. destruct (T h c Hin) as (i & q & Hq & Hp & Hb & Hc). destruct (K i q Hq Hb) as (q' & Hq' & Hp' & Hb' & Hc').
  exists i, q'. split; [exact Hq'|]. split; [congruence|]. split; [exact Hb'|]. destruct Hc' as [-> | ->]; auto.
Qed.
Lemma covers_frees R s s' : frees s s' -> covers R s -> covers R s'.
Proof. intros K T i q Hq Hb. destruct (K i q Hq Hb) as (q' & Hq' & -> & Hb'). eauto. Qed.
Lemma tracks_sub R R' s : (forall x, In x R' -> In x R) -> tracks R s -> tracks R' s.
Proof. intros H T h c Hin. apply T. auto. Qed.

Definition reserves (R : list (handle * Z)) (o : list out) : list (handle * Z) := fold_left reserve1 (map Eff o) R.
(* nothing reserved is handed out *)
Fixpoint safe (R : list (handle * Z)) (o : list out) : Prop :=
  match o with
  | [] => True
  | x :: o => match x with O_idle _ (D_seq h) _ => forall y, In y R -> h_ipc (fst y) <> h_ipc h | _ => True end /\ safe (reserve1 R (Eff x)) o
  end.
Lemma safe_app R a b : safe R (a ++ b) <-> safe R a /\ safe (reserves R a) b.
Proof.
  revert R. induction a as [|x a IH]; intros R; cbn [app safe]; [unfold reserves; cbn; tauto|]. rewrite IH. unfold reserves. cbn [map fold_left]. tauto.
Qed.
Lemma reserves_app R a b : reserves R (a ++ b) = reserves (reserves R a) b.
Proof. unfold reserves. rewrite map_app, fold_left_app. reflexivity. Qed.

(* a transition with its effects *)
Definition fine (R : list (handle * Z)) (x : state * list out) : Prop := tracks (reserves R (snd x)) (fst x) /\ safe R (snd x).
Lemma fine_then R x f : fine R x -> (inv (fst x) -> tracks (reserves R (snd x)) (fst x) -> fine (reserves R (snd x)) (f (fst x))) -> inv (fst x) -> fine R (then_ x f).
Proof.
  intros [H1 H2] Hf Hi. destruct (Hf Hi H1) as [H3 H4]. split; [rewrite then_fst, then_snd, reserves_app; exact H3|].
  rewrite then_snd. apply safe_app. auto.
Qed.

(* effects that say nothing about reservations *)
Definition silent (x : out) : bool := match x with O_idle _ (D_seq _) _ | O_lost _ => false | _ => true end.
Lemma filter_true {A} (l : list A) : filter (fun _ => true) l = l.
Proof. induction l; cbn; congruence. Qed.
Lemma reserve_silent R x : silent x = true -> reserve1 R (Eff x) = R.
Proof. destruct x; try discriminate; intros H; unfold reserve1; cbn [releases negb]; rewrite filter_true; auto. destruct d; [discriminate| |]; reflexivity. Qed.
Lemma reserves_silent o : forall R, forallb silent o = true -> reserves R o = R /\ safe R o.
Proof.
  induction o as [|x o IH]; intros R H; [split; [reflexivity|exact I]|]. cbn in H. apply andb_prop in H. destruct H as [Hx H].
  unfold reserves. cbn [map fold_left safe]. rewrite (reserve_silent R x Hx). destruct (IH R H) as [A B]. split; [exact A|]. split; [|exact B].
  destruct x; auto. destruct d; auto. discriminate.
Qed.
Lemma fine_silent R s o : tracks R s -> forallb silent o = true -> fine R (s, o).
Proof. intros H1 H2. destruct (reserves_silent o R H2) as [A B]. split; cbn [fst snd]; [rewrite A; exact H1|exact B]. Qed.

(* ---------------------------------------------------------------- lookups *)
Lemma tracks_lost R s ipc : inv s -> tracks R s -> fine R (lost ipc s).
Proof.
  intros Hi T. split; [|cbn; auto]. unfold lost, reserves. cbn [fst snd map fold_left]. unfold reserve1. cbn [releases].
  intros h c Hin. apply filter_In in Hin. destruct Hin as [Hin Hn]. cbn in Hn. apply negb_true_iff, Z.eqb_neq in Hn.
  destruct (T h c Hin) as (i & q & Hq & Hp & Hb & Hc). exists i, q. split; [|auto].
  unfold undeliverable. destruct (find_seq ipc s) as [k|] eqn:E; [|exact Hq]. destruct (find_seq_some _ _ _ E) as (q0 & Hq0 & E0).
  cbn. rewrite get_upd. destruct (Nat.eqb_spec i k) as [->|]; [|exact Hq]. congruence.
Qed.
Lemma fine_send R e r d dl s : inv s -> match d with D_seq h => tracks (R ++ [(h, r_corr r)]) s /\ (forall y, In y R -> h_ipc (fst y) <> h_ipc h) | _ => tracks R s end ->
  fine R (send_reply e r d dl s).
Proof.
  intros Hi H. unfold send_reply. apply fine_then; [| |exact Hi].
  - destruct d; [destruct H as [H H']| |]; (split; [|cbn; auto]); cbn [fst snd]; unfold reserves; cbn [map fold_left]; unfold reserve1; cbn [releases negb]; rewrite filter_true; exact H.
  - intros _ T. cbn [fst]. destruct (e_gone e _); [apply tracks_lost; [exact Hi|exact T]|apply fine_silent; [exact T|reflexivity]].
Qed.

Lemma tracks_reserve R s i q vi r : tracks R s -> get (s_seq s) i = Some q -> idle q = true ->
  tracks (R ++ [(q_proc q, r_corr r)]) (with_seq (upd i (q_reserve vi (caller_in r)) (s_seq s)) s).
Proof.
  intros T Hq Hb h c Hin. apply in_app_or in Hin. cbn [with_seq s_seq]. destruct Hin as [Hin | [Hin | []]].
  - destruct (T h c Hin) as (j & q' & Hq' & Hp & Hb' & Hc). exists j, q'. split; [|auto]. rewrite get_upd. destruct (Nat.eqb_spec j i) as [->|]; [congruence|exact Hq'].
  - injection Hin as <- <-. exists i, (q_reserve vi (caller_in r) q). rewrite get_upd, Nat.eqb_refl, Hq. cbn. auto.
Qed.
Lemma idle_unreserved R s i q : inv s -> tracks R s -> get (s_seq s) i = Some q -> idle q = true -> forall y, In y R -> h_ipc (fst y) <> h_ipc (q_proc q).
Proof.
  intros Hi T Hq Hb [h c] Hin E. cbn in E. destruct (T h c Hin) as (j & q' & Hq' & <- & Hb' & _).
  assert (j = i) by (eapply i_ipc; eauto). subst. congruence.
Qed.

Lemma fine_lookup cfg e r R s : inv s -> tracks R s -> fine R (lookup cfg e r s).
Proof.
  intros Hi T. pose proof (lookup_looked cfg e r s Hi) as L. destruct (lookup cfg e r s) as [s' o]. cbn [fst snd] in L. destruct L.
  - apply fine_silent; [exact T|reflexivity].
  - apply fine_silent; [eapply tracks_keeps; [|exact T]; apply keeps_eq; reflexivity|]. destruct H0 as [-> | (n & ->)]; reflexivity.
  - apply fine_silent; [eapply tracks_keeps; [|exact T]; apply keeps_eq; reflexivity|reflexivity].
  - apply fine_silent; [exact T|reflexivity].
  - rewrite <- surjective_pairing.
    assert (same_dir s s1 /\ s_seq s1 = s_seq s) as [Hs Hq].
    { subst s1. destruct (r_gtrid r =? 0); [split; [apply same_refl|reflexivity]|]. destruct (assoc_of _ _); [destruct (mem _ _)|]; (split; [|reflexivity]); try apply same_refl; apply same_assoc. }
    apply fine_send; [eapply inv_same; eauto|]. eapply tracks_keeps; [apply keeps_eq; exact Hq|exact T].
  - rewrite <- surjective_pairing.
    assert (Hs : same_dir s s1).
    { subst s1. eapply same_trans; [|apply same_timer]. eapply same_trans; [|apply same_dead]. apply same_upd. reflexivity. }
    apply fine_send; [eapply inv_same; eauto|]. split; [|eapply idle_unreserved; eauto].
    eapply tracks_keeps; [|eapply tracks_reserve; eauto]. subst s1. apply keeps_eq. reflexivity.
Qed.
Lemma fine_again cfg e l : forall R s, inv s -> tracks R s -> fine R (lookup_again cfg e l s).
Proof.
  unfold lookup_again. induction l as [|p l IH]; intros R s Hi T; cbn [each]; [apply fine_silent; [exact T|reflexivity]|].
  apply fine_then; [apply fine_lookup; assumption| |apply good_lookup; exact Hi]. intros Hi1 T1. apply IH; assumption.
Qed.
Lemma fine_serve cfg e i R s : inv s -> tracks R s -> (exists q, get (s_seq s) i = Some q) -> fine R (serve_first cfg e i s).
Proof.
  intros Hi T (q & Hq). unfold serve_first. rewrite Hq. destruct (extract_first _ _) as [[p rest]|]; [|apply fine_silent; [exact T|reflexivity]].
  apply fine_lookup; [apply inv_pend; exact Hi|]. eapply tracks_keeps; [apply keeps_eq; reflexivity|exact T].
Qed.

(* ---------------------------------------------------------------- the handlers *)
Definition still (s s' : state) : Prop := keeps s s' /\ frees s s'.
Lemma still_refl s : still s s. Proof. split; [apply keeps_refl|apply frees_refl]. Qed.
Lemma still_trans a b c : still a b -> still b c -> still a c.
Proof. intros [H1 H2] [H3 H4]. split; [eapply keeps_trans; eauto|eapply frees_trans; eauto]. Qed.
Lemma still_eq s s' : s_seq s' = s_seq s -> still s s'.
Proof. intros E. split; [apply keeps_eq; exact E|apply frees_eq; exact E]. Qed.
Lemma still_upd s i f : quiet f -> still s (with_seq (upd i f (s_seq s)) s).
Proof. intros H. split; [apply keeps_upd; exact H|apply frees_upd]. intros q. destruct (H q) as (A & B & _). auto. Qed.
Lemma still_fold {A} (f : state -> A -> state) l : (forall s x, still s (f s x)) -> forall s, still s (fold_left f l s).
Proof. intros Hf. induction l as [|x l IH]; intros s; cbn [fold_left]; [apply still_refl|]. eapply still_trans; [apply Hf|apply IH]. Qed.
Lemma tracks_still R s s' : still s s' -> tracks R s -> tracks R s'.
Proof. intros [H _]. apply tracks_keeps. exact H. Qed.
Lemma covers_still R s s' : still s s' -> covers R s -> covers R s'.
Proof. intros [_ H]. apply covers_frees. exact H. Qed.

Lemma insert_service_seq cfg v s : s_seq (fst (insert_service cfg v s)) = s_seq s.
Proof.
  unfold insert_service. destruct (g_routes cfg (v_name v)) as [|n0 ns].
  - destruct (lookup_name (v_name v) s); [reflexivity|]. destruct (insert v (s_svc s)). reflexivity.
  - destruct (lookup_name (v_name v) s); [reflexivity|]. destruct (first_known (n0 :: ns) s); [reflexivity|]. destruct (insert v (s_svc s)). reflexivity.
Qed.
Lemma still_find_or_add h s : still s (fst (find_or_add_seq h s)).
Proof.
  unfold find_or_add_seq. destruct (find_seq _ _); [apply still_refl|]. destruct (insert _ _) as [l k] eqn:E. destruct (insert_spec _ _ _ _ E) as [H1 H2]. cbn [fst].
  split; intros i q; cbn [with_seq s_seq]; intros Hq Hb.
  - exists q. rewrite H2. destruct (Nat.eqb_spec i k) as [->|]; [congruence|auto].
  - rewrite H2 in Hq. destruct (Nat.eqb_spec i k) as [->|]; [injection Hq as <-; discriminate|eauto].
Qed.
Lemma still_add_seq cfg i n s : still s (add_seq_service cfg i n s).
Proof.
  unfold add_seq_service. destruct (insert_service cfg _ s) as [s' vi] eqn:E. pose proof (insert_service_seq cfg (mk_v n (g_timeout cfg) (g_fatal cfg) [] [] 0) s) as Hs.
  rewrite E in Hs. cbn [fst] in Hs. eapply still_trans; [apply (still_eq s s'); exact Hs|]. eapply still_trans; [apply (still_upd s' i (q_add vi))|apply still_eq; reflexivity].
  intros q. cbn. auto.
Qed.
Lemma still_remove_seqs i ns s : still s (remove_seq_services i ns s).
Proof.
  unfold remove_seq_services. apply still_fold. intros s0 vi. destruct (get _ vi); [|apply still_refl]. destruct (memz _ _); [|apply still_refl].
  eapply still_trans; [apply (still_upd s0 i (q_remove vi))|apply still_eq; reflexivity]. intros q. cbn. auto.
Qed.
Lemma still_find_or_add_con h s : still s (fst (find_or_add_con h s)).
Proof. apply still_eq. unfold find_or_add_con. destruct (find_con _ _); [reflexivity|]. destruct (insert _ _). reflexivity. Qed.
Lemma still_add_con cfg i order x s : still s (add_con_service cfg i order x s).
Proof.
  apply still_eq. destruct x as [[n hops] t]. unfold add_con_service. destruct (insert_service cfg _ s) as [s' vi] eqn:E.
  pose proof (f_equal (fun x => s_seq (fst x)) E) as Hs. cbn [fst] in Hs. rewrite insert_service_seq in Hs. cbn. congruence.
Qed.
Lemma still_remove_cons i ns s : still s (remove_con_services i ns s).
Proof.
  unfold remove_con_services. apply still_fold. intros s0 vi. destruct (get _ vi); [|apply still_refl]. destruct (memz _ _); [|apply still_refl]. apply still_eq. reflexivity.
Qed.

Lemma remove_process_seq p s j : get (s_seq (fst (remove_process p s))) j = match get (s_seq s) j with Some q => if p (q_proc q) then None else Some q | None => None end.
Proof.
  unfold remove_process. cbn [fst].
  assert (A : forall l s, s_seq (fold_left (fun s i => remove_con_instance i s) l s) = s_seq s).
  { induction l as [|x l IH]; intros s0; cbn [fold_left]; [reflexivity|]. rewrite IH. reflexivity. }
  assert (B : forall l s, get (s_seq (fold_left (fun s i => remove_seq_instance i s) l s)) j = if mem j l then None else get (s_seq s) j).
  { induction l as [|x l IH]; intros s0; cbn [fold_left]; [reflexivity|]. rewrite IH. unfold remove_seq_instance. cbn [with_disabled with_seq s_seq]. rewrite get_put_none.
    unfold mem. cbn [existsb]. destruct (Nat.eqb_spec j x); cbn; [destruct (existsb _ _); reflexivity|reflexivity]. }
  rewrite B, A. destruct (mem j _) eqn:E.
  - apply mem_In, in_having in E. destruct E as (q & -> & ->). reflexivity.
  - destruct (get (s_seq s) j) as [q|] eqn:Eq; [|reflexivity]. destruct (p (q_proc q)) eqn:Ep; [|reflexivity].
    apply mem_false in E. exfalso. apply E. apply in_having. eauto.
Qed.
Lemma frees_remove p s : frees s (fst (remove_process p s)).
Proof.
  intros i q Hq Hb. rewrite remove_process_seq in Hq. destruct (get (s_seq s) i) as [q0|]; [|discriminate]. destruct (p _); [discriminate|].
  injection Hq as <-. eauto.
Qed.
Lemma tracks_remove p R s : tracks R s -> tracks (filter (fun y => negb (p (fst y))) R) (fst (remove_process p s)).
Proof.
  intros T h c Hin. apply filter_In in Hin. destruct Hin as [Hin Hn]. destruct (T h c Hin) as (i & q & Hq & Hp & Hb & Hc). exists i, q.
  split; [|auto]. rewrite remove_process_seq, Hq, Hp. apply negb_true_iff in Hn. cbn in Hn. rewrite Hn. reflexivity.
Qed.
Lemma covers_remove p R s : covers R s -> covers (filter (fun y => negb (p (fst y))) R) (fst (remove_process p s)).
Proof.
  intros T i q Hq Hb. rewrite remove_process_seq in Hq. destruct (get (s_seq s) i) as [q0|] eqn:E; [|discriminate]. destruct (p _) eqn:Ep; [discriminate|].
  injection Hq as <-. destruct (T i q0 E Hb) as (c & Hc). exists c. apply filter_In. split; [exact Hc|]. cbn. rewrite Ep. reflexivity.
Qed.

Lemma rcv_none R e i : (forall y, releases (Rcv e i) y = false) -> reserve1 R (Rcv e i) = R.
Proof. intros H. unfold reserve1. erewrite filter_ext; [apply filter_true|]. intros y. cbn beta. rewrite H. reflexivity. Qed.

Lemma fine_nil R s : tracks R s -> fine R (s, []).
Proof. intros T. apply fine_silent; [exact T|reflexivity]. Qed.
Lemma silent_shutdown ds : forallb silent (map shutdown_fired ds) = true.
Proof. induction ds; cbn; auto. Qed.
Lemma silent_error cs b : forallb silent (map (fun c => O_error c b) cs) = true.
Proof. induction cs; cbn; auto. Qed.

(* an advertise that is not a withdrawal of everything: the state before pending lookups are served *)
Definition adv_seq (cfg : config) (h : handle) (alias : Z) (add rem : list Z) (s : state) : state * nat :=
  let (s, i) := find_or_add_seq h s in
  (remove_seq_services i rem (fold_left (fun s n => add_seq_service cfg i n s) (filter (g_allow cfg alias) add) s), i).
Lemma adv_seq_still cfg h alias add rem s : still s (fst (adv_seq cfg h alias add rem s)).
Proof.
  unfold adv_seq. pose proof (still_find_or_add h s) as H0. destruct (find_or_add_seq h s) as [s0 i]. cbn [fst] in *.
  eapply still_trans; [exact H0|]. eapply still_trans; [|apply still_remove_seqs]. apply still_fold. intros s1 n. apply still_add_seq.
Qed.
Lemma adv_seq_inv cfg h alias add rem s s' i : inv s -> h_valid h = true -> adv_seq cfg h alias add rem s = (s', i) -> inv s' /\ exists q, get (s_seq s') i = Some q.
Proof.
  intros Hi Hh H. unfold adv_seq in H. destruct (find_or_add_seq h s) as [s0 k] eqn:E. injection H as <- <-.
  destruct (inv_add_instance _ _ _ _ Hi Hh E) as (Hi0 & q & Hq & _).
  destruct (inv_add_seqs cfg k (filter (g_allow cfg alias) add) s0 Hi0 (ex_intro _ q Hq)) as [Hi2 Hq2]. split; [apply inv_remove_seqs; exact Hi2|apply remove_seqs_get; exact Hq2].
Qed.
Definition undisable (i : nat) (s : state) : state := with_disabled (match extract_first (Nat.eqb i) (s_disabled s) with Some (_, l) => l | None => s_disabled s end) s.
(* the cases of an advertise *)
Lemma advertise_cases cfg e h alias add rem s (P : state * list out -> Prop) :
  (h_valid h = false -> P (s, [])) ->
  (h_valid h = true -> add = [] -> rem = [] -> P (fst (remove_process (fun x => h_pid x =? h_pid h) s), [])) ->
  (forall s0 i, h_valid h = true -> (add <> [] \/ rem <> []) -> find_or_add_seq h s = (s0, i) -> mem i (s_disabled s0) = true -> P (undisable i s0, [])) ->
  (forall s0 s1 i, h_valid h = true -> (add <> [] \/ rem <> []) -> find_or_add_seq h s = (s0, i) -> mem i (s_disabled s0) = false -> adv_seq cfg h alias add rem s = (s1, i) -> P (serve_first cfg e i s1)) ->
  P (advertise cfg e h alias add rem s).
Proof.
  intros H1 H2 H3 H4. unfold advertise. destruct (h_valid h) eqn:Eh; cbn [negb]; [|apply H1; reflexivity].
  assert (Hgen : add <> [] \/ rem <> [] -> P (let add0 := filter (g_allow cfg alias) add in
      let (s0, i) := find_or_add_seq h s in
      if mem i (s_disabled s0) then
        (with_disabled (match extract_first (Nat.eqb i) (s_disabled s0) with Some (_, l) => l | None => s_disabled s0 end) s0, [])
      else
        let s0 := fold_left (fun s n => add_seq_service cfg i n s) add0 s0 in
        let s0 := remove_seq_services i rem s0 in
        serve_first cfg e i s0)).
  { intros Hne. unfold adv_seq in H4. destruct (find_or_add_seq h s) as [s0 i] eqn:E. cbv zeta. destruct (mem i (s_disabled s0)) eqn:Em.
    - apply (H3 s0 i); auto.
    - eapply (H4 s0 _ i); auto. }
  destruct add as [|a add]; [destruct rem as [|b rem]|].
  - apply H2; reflexivity.
  - apply Hgen. right. discriminate.
  - apply Hgen. left. discriminate.
Qed.

(* a concurrent advertise: the state before pending lookups are served *)
Definition adv_con (cfg : config) (h : handle) (alias order : Z) (add : list (Z * Z * Z)) (rem : list Z) (s : state) : state :=
  let (s, i) := find_or_add_con h s in
  remove_con_services i rem (fold_left (fun s x => add_con_service cfg i order x s) (filter (fun x => g_allow cfg alias (fst (fst x))) add)
    (with_con (upd i (fun c => mk_ci (ci_proc c) order) (s_con s)) s)).
Lemma adv_con_still cfg h alias order add rem s : still s (adv_con cfg h alias order add rem s).
Proof.
  unfold adv_con. pose proof (still_find_or_add_con h s) as H0. destruct (find_or_add_con h s) as [s0 i]. cbn [fst] in *.
  eapply still_trans; [exact H0|]. eapply still_trans; [|apply still_remove_cons]. eapply still_trans; [|apply still_fold; intros; apply still_add_con]. apply still_eq. reflexivity.
Qed.
Lemma adv_con_inv cfg h alias order add rem s : inv s -> h_valid h = true -> inv (adv_con cfg h alias order add rem s).
Proof.
  intros Hi Eh. unfold adv_con. destruct (find_or_add_con h s) as [s1 i] eqn:Ef. destruct (inv_add_con_instance _ _ _ _ Hi Eh Ef) as (Hi1 & q & Hq & _).
  apply inv_remove_cons, inv_add_cons; [apply inv_order; exact Hi1|]. cbn [with_con s_con]. rewrite get_upd, Nat.eqb_refl, Hq. eexists. reflexivity.
Qed.
Lemma advertise_con_cases cfg e h alias dir order add rem s (P : state * list out -> Prop) :
  (h_valid h = false -> P (s, [])) ->
  (h_valid h = true -> dir = Dir_reset -> P (fst (remove_process (fun x => h_ipc x =? h_ipc h) s), [])) ->
  (h_valid h = true -> dir = Dir_instance -> find_con (h_ipc h) s = None -> P (s, [])) ->
  (forall i, h_valid h = true -> dir = Dir_instance -> find_con (h_ipc h) s = Some i -> P (map_svc update_prioritized (with_con (upd i (fun c => mk_ci (ci_proc c) order) (s_con s)) s), [])) ->
  (forall s1 found rest, h_valid h = true -> dir = Dir_update -> s1 = adv_con cfg h alias order add rem s -> partition (concurrent_only s1) (s_pend s1) = (found, rest) -> P (lookup_again cfg e found (with_pend rest s1))) ->
  P (advertise_con cfg e h alias dir order add rem s).
Proof.
  intros H1 H2 H3 H4 H5. unfold advertise_con. destruct (h_valid h) eqn:Eh; cbn [negb]; [|apply H1; reflexivity]. destruct dir.
  - unfold adv_con in H5. destruct (find_or_add_con h s) as [s0 i]. cbv zeta. destruct (partition _ _) as [found rest] eqn:Ep. eapply H5; eauto.
  - apply H2; reflexivity.
  - destruct (find_con _ _) eqn:E; [apply H4|apply H3]; auto.
Qed.

Lemma fine_advertise cfg e h alias add rem R s : inv s -> tracks R s -> fine (reserve1 R (Rcv e (I_advertise h alias add rem))) (advertise cfg e h alias add rem s).
Proof.
  intros Hi T.
  assert (Hall : tracks (reserve1 R (Rcv e (I_advertise h alias add rem))) s).
  { eapply tracks_sub; [|exact T]. unfold reserve1. intros x Hx. apply filter_In in Hx. tauto. }
  apply advertise_cases.
  - intros _. apply fine_nil. exact Hall.
  - intros Hv -> ->. apply fine_nil. unfold reserve1. cbn [releases]. rewrite Hv. cbn [andb].
    pose proof (tracks_remove (fun x => h_pid x =? h_pid h) R s T) as H. eapply tracks_sub; [|exact H]. intros x. rewrite !filter_In. rewrite Z.eqb_sym. tauto.
  - intros s0 i Hv _ E _. apply fine_nil. eapply tracks_still; [|exact Hall]. pose proof (still_find_or_add h s) as Hs. rewrite E in Hs. cbn [fst] in Hs.
    eapply still_trans; [exact Hs|]. apply still_eq. reflexivity.
  - intros s0 s1 i Hv _ _ _ E. destruct (adv_seq_inv _ _ _ _ _ _ _ _ Hi Hv E) as [Hi1 Hq]. apply fine_serve; [exact Hi1| |exact Hq].
    eapply tracks_still; [|exact Hall]. pose proof (adv_seq_still cfg h alias add rem s) as Hs. rewrite E in Hs. exact Hs.
Qed.
Lemma fine_advertise_con cfg e h alias dir order add rem R s : inv s -> tracks R s ->
  fine (reserve1 R (Rcv e (I_concurrent h alias dir order add rem))) (advertise_con cfg e h alias dir order add rem s).
Proof.
  intros Hi T.
  assert (Hall : tracks (reserve1 R (Rcv e (I_concurrent h alias dir order add rem))) s).
  { eapply tracks_sub; [|exact T]. unfold reserve1. intros x Hx. apply filter_In in Hx. tauto. }
  apply advertise_con_cases.
  - intros _. apply fine_nil. exact Hall.
  - intros Hv ->. apply fine_nil. unfold reserve1. cbn [releases]. rewrite Hv. cbn [andb].
    pose proof (tracks_remove (fun x => h_ipc x =? h_ipc h) R s T) as H. eapply tracks_sub; [|exact H]. intros x. rewrite !filter_In. rewrite Z.eqb_sym. tauto.
  - intros _ _ _. apply fine_nil. exact Hall.
  - intros i _ _ _. apply fine_nil. eapply tracks_still; [apply still_eq; reflexivity|exact Hall].
  - intros s1 found rest Hv _ -> _. apply fine_again; [apply inv_pend, adv_con_inv; assumption|]. eapply tracks_still; [|exact Hall].
    eapply still_trans; [apply adv_con_still|apply still_eq; reflexivity].
Qed.

Lemma fine_discard e ipc corr reply R s : inv s -> tracks R s -> fine (reserve1 R (Rcv e (I_discard ipc corr reply))) (discard ipc corr reply s).
Proof.
  intros Hi T. unfold discard. destruct (extract_first _ _) as [[p rest]|].
  - apply fine_silent; [|destruct reply; reflexivity]. eapply tracks_sub; [|exact T]. unfold reserve1. intros x Hx. apply filter_In in Hx. tauto.
  - apply fine_silent; [|destruct reply; reflexivity]. intros h c Hin. unfold reserve1 in Hin. apply filter_In in Hin. cbn [releases snd] in Hin. destruct Hin as [Hin Hn].
    apply negb_true_iff, orb_false_iff in Hn. destruct Hn as [Hn1 Hn2]. apply Z.eqb_neq in Hn1. apply Z.eqb_neq in Hn2. destruct (T h c Hin) as (i & q & Hq & Hp & Hb & Hc).
    exists i, q. split; [|auto]. cbn [with_seq s_seq]. rewrite get_map, Hq. cbn [option_map]. replace (c_corr (q_call q) =? corr) with false; [rewrite andb_false_r; reflexivity|].
    symmetry. apply Z.eqb_neq. destruct Hc as [-> | ->]; cbn; congruence.
Qed.

Lemma find_seq_unique ipc s i : inv s -> find_seq ipc s = Some i -> forall j q, get (s_seq s) j = Some q -> h_ipc (q_proc q) = ipc -> j = i.
Proof. intros Hi H j q Hq E. destruct (find_seq_some _ _ _ H) as (q' & Hq' & E'). eapply i_ipc; eauto. congruence. Qed.
Lemma still_dead_remove c s : still s (dead_remove c s).
Proof. apply still_eq. unfold dead_remove. destruct (s_dead s) as [|x r]; [reflexivity|]. destruct (d_corr x =? c); [destruct r|]; reflexivity. Qed.
Lemma notify_silent pid trid s : s_seq (fst (notify_tm pid trid s)) = s_seq s /\ forallb silent (snd (notify_tm pid trid s)) = true.
Proof. unfold notify_tm. destruct (negb trid); [auto|]. destruct (extract_first _ _) as [[x l]|]; auto. Qed.
Lemma ack_state_inv corr h trid s : inv s -> inv (fst (notify_tm (h_pid h) trid (dead_remove corr s))).
Proof. intros Hi. apply good_notify. eapply inv_same; [apply same_dead_remove|exact Hi]. Qed.

Lemma tracks_free R s ipc : tracks R s -> inv s -> tracks (filter (fun y => negb (ipc =? h_ipc (fst y))) R) (match find_seq ipc s with Some i => with_seq (upd i q_free (s_seq s)) s | None => s end).
Proof.
  intros T Hi h c Hin. apply filter_In in Hin. destruct Hin as [Hin Hn]. cbn [fst] in Hn. apply negb_true_iff, Z.eqb_neq in Hn. destruct (T h c Hin) as (i & q & Hq & Hp & Hr).
  exists i, q. split; [|auto]. destruct (find_seq ipc s) as [k|] eqn:E; [|exact Hq]. destruct (find_seq_some _ _ _ E) as (q' & Hq' & E').
  cbn [with_seq s_seq]. rewrite get_upd. destruct (Nat.eqb_spec i k) as [->|]; [congruence|exact Hq].
Qed.

Lemma fine_ack cfg e corr h trid R s : inv s -> tracks R s -> fine (reserve1 R (Rcv e (I_ack corr h trid))) (ack cfg e corr h trid s).
Proof.
  intros Hi T. unfold ack. pose proof (notify_silent (h_pid h) trid (dead_remove corr s)) as [Hn1 Hn2]. pose proof (ack_state_inv corr h trid s Hi) as Hi1.
  set (R' := reserve1 R _).
  assert (T1 : tracks R (fst (notify_tm (h_pid h) trid (dead_remove corr s)))).
  { eapply tracks_still; [|exact T]. eapply still_trans; [apply still_dead_remove|apply still_eq; exact Hn1]. }
  pose proof (tracks_free R _ (h_ipc h) T1 Hi1) as T2.
  destruct (notify_tm (h_pid h) trid (dead_remove corr s)) as [s1 o1]. cbn [fst snd] in *.
  apply fine_then; [|intros _ _|exact Hi1]; cbn [fst snd].
  - apply fine_silent; [|exact Hn2]. eapply tracks_sub; [|exact T1]. intros x Hx. subst R'. unfold reserve1 in Hx. apply filter_In in Hx. tauto.
  - rewrite (proj1 (reserves_silent o1 R' Hn2)). subst R'. unfold reserve1. cbn [releases]. destruct (find_seq (h_ipc h) s1) as [i|] eqn:Ef; [|apply fine_nil; exact T2].
    destruct (find_seq_some _ _ _ Ef) as (q & Hq & _). cbn [with_seq s_disabled s_fan]. destruct (mem i (s_disabled s1)).
    + destruct (flive_reply corr (h_pid h) (s_fan s1) (i_fan _ Hi1)) as (f & ds & -> & Hf). apply fine_silent; [|apply silent_shutdown]. eapply tracks_still; [apply still_eq; reflexivity|exact T2].
    + apply fine_serve; [apply inv_free; exact Hi1|exact T2|]. cbn [with_seq s_seq]. rewrite get_upd, Nat.eqb_refl, Hq. eexists. reflexivity.
Qed.

Lemma fine_exit cfg e pid R s : inv s -> tracks R s -> fine (reserve1 R (Rcv e (I_exit pid))) (process_exit cfg e pid s).
Proof.
  intros Hi T. unfold process_exit. pose proof (flive_failed pid _ (i_fan _ Hi)) as Hf. destruct (fan_failed pid (s_fan s)) as [f ds]. cbn [fst] in Hf.
  pose proof (inv_remove_process (fun x => h_pid x =? pid) _ (inv_fan s f Hi Hf)) as Hr.
  assert (T1 : tracks R (with_fan f s)) by (eapply tracks_still; [apply still_eq; reflexivity|exact T]).
  pose proof (tracks_remove (fun x => h_pid x =? pid) R (with_fan f s) T1) as T2. destruct (remove_process _ _) as [s1 cs]. cbn [fst] in Hr, T2.
  assert (T3 : tracks (reserve1 R (Rcv e (I_exit pid))) s1).
  { eapply tracks_sub; [|exact T2]. unfold reserve1. cbn [releases]. intros x. rewrite !filter_In, Z.eqb_sym. tauto. }
  assert (Hsil : forallb silent (map shutdown_fired ds ++ map (fun c => O_error c false) cs) = true) by (rewrite forallb_app, silent_shutdown, silent_error; reflexivity).
  apply fine_then; cbn [fst snd].
  - apply fine_silent; [|exact Hsil]. eapply tracks_still; [apply still_eq; reflexivity|exact T3].
  - intros Hi2 T4. apply fine_again; [exact Hi2|exact T4].
  - apply inv_pend, inv_late. exact Hr.
Qed.

Lemma expire_one_keeps x s : still s (fst (expire_one x s)) /\ forallb silent (snd (expire_one x s)) = true.
Proof.
  unfold expire_one. destruct (extract_first _ _) as [[p rest]|]; [split; [apply still_eq; reflexivity|reflexivity]|].
  destruct (d_serv x) as [vi|]; [|split; [apply still_refl|reflexivity]]. destruct (d_target x) as [i|]; [|split; [apply still_refl|reflexivity]].
  destruct (get (s_svc s) vi) as [v|]; [|split; [apply still_refl|reflexivity]]. destruct (get (s_seq s) i) as [q|]; [|split; [apply still_refl|reflexivity]].
  destruct (_ =? _); [|split; [apply still_refl|reflexivity]].
  assert (Hc : still s (with_seq (upd i q_consume (s_seq s)) s)) by (apply still_upd; intros y; cbn; auto).
  cbv zeta. destruct (h_valid _); [|split; [exact Hc|reflexivity]]. split; [|reflexivity]. cbn [fst]. eapply still_trans; [exact Hc|].
  destruct (v_fatal v); apply still_eq; reflexivity.
Qed.
Lemma each_expire_keeps l : forall s, still s (fst (each expire_one l s)) /\ forallb silent (snd (each expire_one l s)) = true.
Proof.
  induction l as [|x l IH]; intros s; cbn [each]; [split; [apply still_refl|reflexivity]|]. rewrite then_fst, then_snd.
  destruct (expire_one_keeps x s) as [H1 H2]. destruct (IH (fst (expire_one x s))) as [H3 H4]. split; [eapply still_trans; eauto|]. rewrite forallb_app, H2, H4. reflexivity.
Qed.
Lemma timeout_keeps e s : still s (fst (timeout e s)) /\ forallb silent (snd (timeout e s)) = true.
Proof.
  unfold timeout. rewrite then_fst, then_snd. destruct (each_expire_keeps (dead_expired (e_now e) (s_dead s)) (with_dead (dead_rest (e_now e) (s_dead s)) s)) as [H1 H2].
  split; [|rewrite forallb_app, H2; destruct (dead_rest _ _); reflexivity].
  eapply still_trans; [apply (still_eq s (with_dead (dead_rest (e_now e) (s_dead s)) s)); reflexivity|]. eapply still_trans; [exact H1|]. destruct (dead_rest _ _); [apply still_refl|apply still_eq; reflexivity].
Qed.

Lemma fine_prepare cfg e ipc hs R s : inv s -> tracks R s -> fine (reserve1 R (Rcv e (I_prepare ipc hs))) (prepare cfg e ipc hs s).
Proof.
  intros Hi T. rewrite rcv_none by reflexivity. unfold prepare. destruct (prepare_each hs s) as [[[[s1 ns] is] us] ok] eqn:Ep.
  destruct (prepare_each_inv _ _ _ _ _ _ _ Hi Ep) as (Hi1 & -> & Hs1 & _). cbv zeta.
  assert (T1 : tracks R s1) by (eapply tracks_still; [apply still_eq; exact Hs1|exact T]).
  destruct (partition _ _) as [found rest]. apply fine_then.
  - apply fine_again; [apply inv_pend; exact Hi1|]. eapply tracks_still; [apply still_eq; reflexivity|exact T1].
  - intros Hi2 T2. set (s2 := fst _) in *. set (now := match filter _ is with [] => match us with [] => [] | _ => _ end | _ => _ end).
    assert (Hn : forallb silent now = true).
    { subst now. destruct (filter (fun i => negb (seq_busy i s2)) is); [destruct us|]; reflexivity. }
    destruct (filter (fun i => seq_busy i s2) is) as [|b bs]; [apply fine_silent; [exact T2|exact Hn]|].
    destruct (fan_start _ _ _) as [f ds]. apply fine_silent; [eapply tracks_still; [apply still_eq; reflexivity|exact T2]|]. rewrite forallb_app, Hn, silent_shutdown. reflexivity.
  - apply good_again, inv_pend. exact Hi1.
Qed.

Lemma fine_discovered cfg e corr R s : inv s -> tracks R s -> fine (reserve1 R (Rcv e (I_discovered corr))) (discovered cfg e corr s).
Proof.
  intros Hi T. rewrite rcv_none by reflexivity. unfold discovered. destruct (extract_first _ _) as [[p rest]|]; [|apply fine_nil; exact T]. cbv zeta.
  assert (T1 : tracks R (with_pend rest s)) by (eapply tracks_still; [apply still_eq; reflexivity|exact T]).
  match goal with |- fine _ (if ?x then _ else _) => destruct x end; [apply fine_lookup; [apply inv_pend; exact Hi|exact T1]|].
  destruct (r_sem _); (apply fine_silent; [assumption|reflexivity]).
Qed.

Theorem step_fine cfg e i R s : inv s -> tracks R s -> fine (reserve1 R (Rcv e i)) (step cfg e i s).
Proof.
  intros Hi T. destruct i; cbn [step].
  - apply fine_advertise; assumption.
  - apply fine_advertise_con; assumption.
  - rewrite rcv_none by reflexivity. apply fine_lookup; assumption.
  - apply fine_discard; assumption.
  - apply fine_ack; assumption.
  - apply fine_exit; assumption.
  - rewrite rcv_none by reflexivity. destruct (timeout_keeps e s) as [H1 H2]. rewrite (surjective_pairing (timeout e s)). apply fine_silent; [eapply tracks_still; eauto|exact H2].
  - apply fine_prepare; assumption.
  - rewrite rcv_none by reflexivity. apply fine_nil. eapply tracks_still; [apply still_eq; reflexivity|exact T].
  - apply fine_discovered; assumption.
  - rewrite rcv_none by reflexivity. apply tracks_lost; assumption.
Qed.

(* over a whole history *)
Lemma run_app cfg a : forall s b, run cfg (a ++ b) s = (fst (run cfg b (fst (run cfg a s))), snd (run cfg a s) ++ snd (run cfg b (fst (run cfg a s)))).
Proof.
  induction a as [|[e i] a IH]; intros s b; cbn [app run]; [cbn; apply surjective_pairing|]. destruct (step cfg e i s) as [s1 o]. rewrite IH.
  destruct (run cfg a s1) as [s2 t]. cbn [fst snd app]. rewrite <- app_assoc. reflexivity.
Qed.
Fixpoint safes (R : list (handle * Z)) (t : list obs) : Prop :=
  match t with
  | [] => True
  | x :: t => match x with Eff (O_idle _ (D_seq h) _) => forall y, In y R -> h_ipc (fst y) <> h_ipc h | _ => True end /\ safes (reserve1 R x) t
  end.
Lemma safes_app a : forall R b, safes R (a ++ b) <-> safes R a /\ safes (fold_left reserve1 a R) b.
Proof. induction a as [|x a IH]; intros R b; cbn [app safes fold_left]; [tauto|]. rewrite IH. tauto. Qed.
Lemma safe_safes o : forall R, safe R o -> safes R (map Eff o).
Proof. induction o as [|x o IH]; intros R H; cbn [map safes safe] in *; [exact I|]. destruct H as [H1 H2]. split; [exact H1|apply IH; exact H2]. Qed.
Lemma run_tracks cfg l : forall R s, inv s -> tracks R s -> tracks (fold_left reserve1 (snd (run cfg l s)) R) (fst (run cfg l s)) /\ safes R (snd (run cfg l s)).
Proof.
  induction l as [|[e i] l IH]; intros R s Hi T; cbn [run]; [split; [exact T|exact I]|].
  destruct (step_fine cfg e i R s Hi T) as [H1 H2]. pose proof (proj1 (step_good cfg e i s Hi)) as Hi1. destruct (step cfg e i s) as [s1 o]. cbn [fst snd] in *.
  destruct (IH _ s1 Hi1 H1) as [H3 H4]. destruct (run cfg l s1) as [s2 t]. cbn [fst snd] in *. cbn [fold_left safes]. rewrite fold_left_app. split; [exact H3|].
  split; [exact I|]. apply safes_app. split; [apply safe_safes; exact H2|exact H4].
Qed.

Lemma start_seq cfg conf : s_seq (start cfg conf) = [].
Proof.
  unfold start. assert (H : forall s, s_seq s = [] -> s_seq (fold_left (fun s x => let '(n, t, f) := x in fst (insert_service cfg (mk_v n t f [] [] 0) s)) conf s) = []).
  { induction conf as [|[[n t] f] conf IH]; intros s Hs; cbn [fold_left]; [exact Hs|]. apply IH. rewrite insert_service_seq. exact Hs. }
  apply H. reflexivity.
Qed.

Lemma reserve_keeps y t : forall R, In y R -> (forall x, In x t -> releases x y = false) -> In y (fold_left reserve1 t R).
Proof.
  induction t as [|x t IH]; intros R Hin Hn; cbn [fold_left]; [exact Hin|]. apply IH; [|intros z Hz; apply Hn; right; exact Hz].
  assert (In y (filter (fun y => negb (releases x y)) R)) by (apply filter_In; split; [exact Hin|rewrite Hn by (left; reflexivity); reflexivity]).
  unfold reserve1. destruct x as [e i|o]; [exact H|]. destruct o; try exact H. destruct d; try exact H. apply in_or_app. left. exact H.
Qed.

Theorem one_caller cfg t r1 h1 d1 r2 h2 d2 t1 t2 t3 : history cfg t ->
  t = t1 ++ Eff (O_idle r1 (D_seq h1) d1) :: t2 ++ Eff (O_idle r2 (D_seq h2) d2) :: t3 -> h_ipc h1 = h_ipc h2 ->
  exists x, In x t2 /\ releases x (h1, r_corr r1) = true.
Proof.
  intros (conf & l & ->) Ht Hipc.
  assert (T0 : tracks [] (start cfg conf)) by (intros h c []).
  destruct (run_tracks cfg l [] _ (start_inv cfg conf) T0) as [_ Hs]. rewrite Ht in Hs. apply safes_app in Hs. destruct Hs as [_ Hs].
  cbn [safes] in Hs. destruct Hs as [_ Hs]. apply safes_app in Hs. destruct Hs as [_ Hs]. cbn [safes] in Hs. destruct Hs as [Hs _].
  destruct (existsb (fun x => releases x (h1, r_corr r1)) t2) eqn:E; [apply existsb_exists in E; exact E|]. exfalso.
  apply (Hs (h1, r_corr r1)); [|exact Hipc]. apply reserve_keeps.
  - unfold reserve1 at 1. apply in_or_app. right. left. reflexivity.
  - intros x Hx. destruct (releases x (h1, r_corr r1)) eqn:Ex; [|reflexivity]. assert (existsb (fun x => releases x (h1, r_corr r1)) t2 = true) by (apply existsb_exists; eauto). congruence.
Qed.
