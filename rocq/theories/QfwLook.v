(* The lookups of queues: what is asked for, and what waits. *)
From Coq Require Import ZArith List Bool Lia.
From Verif Require Import QfwModel QfwSpec QfwProofs QfwInv QfwFlow QfwCount QfwShape QfwStop QfwEnd.
Import ListNotations.
Local Open Scope Z_scope.

(* a lookup of the forward id *)
Definition look (id k : Z) : pend := Pend LookQ id k 0 0.
Definition waits (id k : Z) (s : state) : Prop := exists p, In p (s_pending s) /\ p_stage p = LookQ /\ p_fwd p = id /\ p_corr p = k.
(* what a part of a step does with the lookups: some are added, each for a queue of a forward that is enabled and that is asked for all its queues *)
Definition Asks (fs : list forward) (ev : list effect) : Prop := forall f k name, In (AskQueue f k name) ev ->
  exists g, In g fs /\ f_id g = f /\ f_enabled g = true /\ In name (queues_of g) /\ forall n, In n (queues_of g) -> exists j, In (AskQueue f j n) ev.
Definition Adds (s s' : state) (ev : list effect) : Prop := forall id k, waits id k s' <-> waits id k s \/ exists name, In (AskQueue id k name) ev.
Lemma adds_trans s s1 s2 e1 e2 : Adds s s1 e1 -> Adds s1 s2 e2 -> Adds s s2 (e1 ++ e2).
Proof.
  intros A B id k. rewrite (B id k), (A id k). split.
  - intros [[X|[n X]]|[n X]]; [auto|right; exists n; apply in_or_app; auto|right; exists n; apply in_or_app; auto].
  - intros [X|[n X]]; [auto|]. apply in_app_or in X as [X|X]; [left; right; exists n; auto|right; exists n; auto].
Qed.
Definition askless (ev : list effect) : Prop := forall f k n, ~ In (AskQueue f k n) ev.
Lemma adds_same s s' ev : askless ev -> (forall p, p_stage p = LookQ -> In p (s_pending s') <-> In p (s_pending s)) -> Adds s s' ev.
Proof.
  intros N E id k. split.
  - intros (p & I & S & X). left. exists p. split; [now apply E|auto].
  - intros [(p & I & S & X)|[n X]]; [exists p; split; [now apply E|auto]|destruct (N _ _ _ X)].
Qed.
Lemma asks_app fs a b : Asks fs a -> Asks fs b -> Asks fs (a ++ b).
Proof.
  intros A B f k n I. apply in_app_or in I as [I|I]; [destruct (A f k n I) as (g & G1 & G2 & G3 & G4 & G5)|destruct (B f k n I) as (g & G1 & G2 & G3 & G4 & G5)]; exists g; repeat (split; [solve [auto]|]); intros m M; destruct (G5 m M) as [j J]; exists j; apply in_or_app; auto.
Qed.
Lemma asks_none fs ev : askless ev -> Asks fs ev.
Proof. intros N f k n I. destruct (N _ _ _ I). Qed.
Lemma ask_adds id names : forall s, Adds s (fst (ask_queues id names s)) (snd (ask_queues id names s)).
Proof.
  induction names as [|n names IH]; intro s; cbn [ask_queues].
  - apply adds_same; [intros f k m []|intros; reflexivity].
  - match goal with |- context [ask_queues id names ?b] => specialize (IH b); destruct (ask_queues id names b) as [s2 ev] end. cbn [fst snd] in *. intros i k. rewrite (IH i k). unfold waits. cbn [s_pending]. split.
    + intros [(p & I & S & F & K)|[m X]]; [|right; exists m; now right]. apply in_app_or in I as [I|[<-|[]]]; [left; exists p; auto|]. cbn in F, K. subst. right. exists n. now left.
    + intros [(p & I & X)|[m [X|X]]]; [left; exists p; split; [apply in_or_app; auto|auto]| |right; exists m; auto]. injection X as <- <- <-. left. eexists. split; [apply in_or_app; right; left; reflexivity|auto].
Qed.
Lemma ask_all id names : forall s, (forall n, In n names -> exists k, In (AskQueue id k n) (snd (ask_queues id names s))) /\ forall f k n, In (AskQueue f k n) (snd (ask_queues id names s)) -> f = id /\ In n names.
Proof.
  induction names as [|n names IH]; intro s; cbn [ask_queues].
  - cbn. split; [intros m []|intros f k m []].
  - match goal with |- context [ask_queues id names ?b] => specialize (IH b); destruct (ask_queues id names b) as [s2 ev] end. cbn [fst snd] in *. destruct IH as [A B]. split.
    + intros m [<-|M]; [exists (s_next s); now left|]. destruct (A m M) as [k K]. exists k. now right.
    + intros f k m [E|I]; [injection E as <- <- <-; split; auto; now left|]. destruct (B f k m I). split; auto. now right.
Qed.
Lemma lookup_asks f s fs : In f fs -> f_enabled f = true -> Asks fs (snd (lookup_queues f s)).
Proof.
  intros I E id k n J. unfold lookup_queues in *. destruct (ask_all (f_id f) (queues_of f) s) as [A B]. destruct (B id k n J) as [-> N]. exists f. repeat (split; [solve [auto]|]). intros m M. apply A. auto.
Qed.
Lemma dequeue_adds n : forall f s, askless (snd (dequeue_n n f s)) /\ forall p, p_stage p = LookQ -> In p (s_pending (fst (dequeue_n n f s))) <-> In p (s_pending s).
Proof.
  induction n as [|n IH]; intros f s; cbn [dequeue_n].
  - cbn. split; [intros g k m []|reflexivity].
  - match goal with |- context [dequeue_n n ?a ?b] => specialize (IH a b); destruct (dequeue_n n a b) as [s2 ev] end. cbn [fst snd] in *. destruct IH as [A B]. split.
    + intros g k m [E|I]; [discriminate|]. destruct (A _ _ _ I).
    + intros p S. rewrite (B p S). cbn [s_pending]. rewrite in_app_iff. split; [intros [I|[<-|[]]]; [auto|discriminate S]|auto].
Qed.
Lemma request_adds f s : askless (snd (dequeue_request f s)) /\ forall p, p_stage p = LookQ -> In p (s_pending (fst (dequeue_request f s))) <-> In p (s_pending s).
Proof. unfold dequeue_request. destruct (f_enabled f); [apply dequeue_adds|]. cbn. split; [intros g k m []|reflexivity]. Qed.
(* next: the forward is the one that is put *)
Lemma next_adds f s fs : In f fs -> f_enabled f = true -> Adds s (fst (next f s)) (snd (next f s)) /\ Asks fs (snd (next f s)).
Proof.
  intros I E. unfold next. destruct (valid_queues f).
  - destruct (request_adds f s) as [A B]. split; [now apply adds_same|now apply asks_none].
  - destruct (existsb _ _); cbn [fst snd].
    + split; [apply adds_same; [intros g k m []|reflexivity]|apply asks_none; intros g k m []].
    + split; [|now apply lookup_asks]. apply (ask_adds (f_id f) (queues_of f) (put_forward f s)).
Qed.
Lemma each_adds (g : forward -> state -> state * list effect) fs l : (forall f s, In f l -> Adds s (fst (g f s)) (snd (g f s)) /\ Asks fs (snd (g f s))) -> forall s, Adds s (fst (each g l s)) (snd (each g l s)) /\ Asks fs (snd (each g l s)).
Proof.
  induction l as [|f l IH]; intros G s; cbn [each].
  - split; [apply adds_same; [intros h k m []|reflexivity]|apply asks_none; intros h k m []].
  - destruct (G f s (or_introl eq_refl)) as [A B]. destruct (g f s) as [s1 e1]. destruct (IH (fun f s I => G f s (or_intror I)) s1) as [A2 B2]. destruct (each g l s1) as [s2 e2]. cbn [fst snd] in *. split; [now apply (adds_trans s s1)|now apply asks_app].
Qed.
Lemma cancel_adds f s fs : Adds s (fst (cancel_surplus f s)) (snd (cancel_surplus f s)) /\ Asks fs (snd (cancel_surplus f s)).
Proof.
  assert (N : askless (snd (cancel_surplus f s))). { intros g k m I. pose proof (cancel_facts [f] s) as X. cbn [each] in X. destruct (cancel_surplus f s) as [s1 e1]. cbv zeta in X. cbn [fst snd] in *. rewrite app_nil_r in X. destruct X as (_ & _ & _ & _ & X & _). exact (X _ I). }
  split; [|now apply asks_none]. apply adds_same; auto. intros p S. unfold cancel_surplus. cbv zeta. destruct (f_service f); [|reflexivity]. cbn [fst s_pending with_pending]. rewrite in_discarded. split.
  - intros [[I _]|(x & I & _ & ->)]; [auto|discriminate S].
  - intro I. left. split; auto. now rewrite S.
Qed.
Lemma comply_adds s : Adds s (fst (comply s)) (snd (comply s)) /\ Asks (s_forwards s) (snd (comply s)) /\
  forall f n, In f (s_forwards s) -> f_enabled f = true -> (0 < f_configured f)%nat -> In n (queues_of f) -> exists k, In (AskQueue (f_id f) k n) (snd (comply s)).
Proof.
  unfold comply. cbv zeta. pose proof (cancel_facts (queue_forwards s ++ service_forwards s) s) as X. cbv zeta in X. destruct X as (_ & Fw & _).
  destruct (each_adds cancel_surplus (s_forwards s) (queue_forwards s ++ service_forwards s) (fun f s' _ => cancel_adds f s' _) s) as [A B]. destruct (each cancel_surplus _ s) as [s1 e1]. cbn [fst snd] in *.
  assert (G : forall f s', In f (service_forwards s1 ++ queue_forwards s1) -> Adds s' (fst (start_lookups f s')) (snd (start_lookups f s')) /\ Asks (s_forwards s) (snd (start_lookups f s'))).
  { intros f s' I. unfold start_lookups. destruct (f_enabled f && negb (f_configured f =? 0)%nat) eqn:E; [|split; [apply adds_same; [intros g k m []|reflexivity]|apply asks_none; intros g k m []]].
    apply andb_true_iff in E as [E _]. split; [apply ask_adds|apply lookup_asks; auto]. rewrite <- Fw. apply in_app_or in I as [I|I]; apply filter_In in I as [I _]; auto. }
  destruct (each_adds start_lookups (s_forwards s) _ G s1) as [A2 B2].
  assert (All : forall l s' f n, In f l -> f_enabled f = true -> (0 < f_configured f)%nat -> In n (queues_of f) -> exists k, In (AskQueue (f_id f) k n) (snd (each start_lookups l s'))).
  { induction l as [|g l IH]; intros s' f n I E L N; cbn [each]; [destruct I|]. destruct I as [->|I].
    - unfold start_lookups at 1. rewrite E. assert ((f_configured f =? 0)%nat = false) as -> by (apply Nat.eqb_neq; lia). cbn [andb negb]. destruct (ask_all (f_id f) (queues_of f) s') as [Q _]. destruct (Q n N) as [k K]. unfold lookup_queues. destruct (ask_queues (f_id f) (queues_of f) s') as [s2 e2]. destruct (each start_lookups l s2) as [s3 e3]. cbn [snd] in *. exists k. apply in_or_app. auto.
    - destruct (start_lookups g s') as [s2 e2]. specialize (IH s2 f n I E L N). destruct (each start_lookups l s2) as [s3 e3]. cbn [snd] in *. destruct IH as [k K]. exists k. apply in_or_app. auto. }
  specialize (All (service_forwards s1 ++ queue_forwards s1) s1). destruct (each start_lookups _ s1) as [s2 e2]. cbn [fst snd] in *.
  assert (N0 : askless (map (fun p => DiscardQueue (p_corr p)) (filter (fun p => stage_eqb (p_stage p) LookQ) (s_pending s)))) by (intros g k m I; apply in_map_iff in I as [p [I _]]; discriminate).
  split; [|split].
  - apply (adds_trans s s); [apply adds_same; [auto|reflexivity]|now apply (adds_trans s s1)].
  - apply asks_app; [now apply asks_none|now apply asks_app].
  - intros f n I E L N. destruct (All f n) as [k K]; auto.
    + rewrite <- Fw in I. apply in_or_app. unfold service_forwards, queue_forwards. destruct (is_queue_forward f) eqn:Q; [right|left]; apply filter_In; split; auto. now rewrite Q.
    + exists k. apply in_or_app. right. apply in_or_app. auto.
Qed.
(* ---- by what doesn't change ---- *)
Definition queues_sta (a : sta) : list Z := let '(_, _, src, dst, _) := a in src :: match dst with Some (d, _) => [d] | None => [] end.
Definition enabled_sta (a : sta) : bool := snd a.
Lemma queues_static g : queues_of g = queues_sta (snd (static g)).
Proof. unfold queues_of, static, queues_sta. cbn. destruct (f_dest g) as [[d x]|]; reflexivity. Qed.
Definition AsksS (l : list (Z * sta)) (ev : list effect) : Prop := forall f k name, In (AskQueue f k name) ev ->
  exists a, In (f, a) l /\ enabled_sta a = true /\ In name (queues_sta a) /\ forall n, In n (queues_sta a) -> exists j, In (AskQueue f j n) ev.
Lemma asks_static fs l ev : Asks fs ev -> (forall g, In g fs -> In (static g) l) -> AsksS l ev.
Proof.
  intros A S f k n I. destruct (A f k n I) as (g & G1 & G2 & G3 & G4 & G5). exists (snd (static g)). split; [specialize (S g G1); rewrite <- G2; exact S|]. split; [exact G3|]. rewrite <- queues_static. auto.
Qed.
Lemma askless_static l ev : askless ev -> AsksS l ev.
Proof. intros N f k n I. destruct (N _ _ _ I). Qed.
Definition Looks (i : input) (s s' : state) (ev : list effect) : Prop :=
  (forall id k, waits id k s' <-> (waits id k s /\ answers_lookup k i = false) \/ exists name, In (AskQueue id k name) ev) /\ AsksS (statics s') ev.
Lemma looks_same i s s' ev : askless ev -> (forall p, p_stage p = LookQ -> In p (s_pending s') <-> In p (s_pending s)) -> (forall id k, waits id k s -> answers_lookup k i = false) -> Looks i s s' ev.
Proof.
  intros N E A. split; [|now apply askless_static]. intros id k. rewrite (adds_same s s' ev N E id k). split; [intros [X|X]; [left; split; [auto|now apply (A id)]|auto]|tauto].
Qed.
Lemma looks_consumed i s s1 s' x ev : NoDup (map p_corr (s_pending s)) -> In x (s_pending s) -> p_stage x = LookQ -> (forall k, answers_lookup k i = (p_corr x =? k)) ->
  s_pending s1 = but (p_corr x) (s_pending s) -> Adds s1 s' ev -> AsksS (statics s') ev -> Looks i s s' ev.
Proof.
  intros ND I S A E B C. split; auto. intros id k. rewrite (B id k), A. enough (Q : waits id k s1 <-> waits id k s /\ (p_corr x =? k) = false) by tauto. unfold waits. rewrite E. split.
  - intros (p & J & Q & F & K). apply in_but in J as [J M]. split; [exists p; auto|]. apply Z.eqb_neq. congruence.
  - intros [(p & J & Q & F & K) M]. apply Z.eqb_neq in M. exists p. split; [apply in_but; split; auto; congruence|auto].
Qed.
Lemma waits_but s x : NoDup (map p_corr (s_pending s)) -> In x (s_pending s) -> p_stage x <> LookQ -> forall p, p_stage p = LookQ -> In p (but (p_corr x) (s_pending s)) <-> In p (s_pending s).
Proof.
  intros ND I S p Q. rewrite in_but. split; [tauto|]. intro J. split; auto. intro E. apply S. assert (p = x) by (apply (nodup_inj p_corr (s_pending s)); auto). now subst.
Qed.
Lemma looks_advance i s x x' e fs : NoDup (map p_corr (s_pending s)) -> In x (s_pending s) -> p_stage x <> LookQ -> p_stage x' <> LookQ -> (forall k, answers_lookup k i = false) ->
  match e with AskQueue _ _ _ => False | _ => True end -> Looks i s (State (s_run s) fs (but (p_corr x) (s_pending s) ++ [x']) (s_next s)) [e].
Proof.
  intros ND I S S' A E. apply looks_same; auto; [intros f k n [J|[]]; subst e; auto|]. intros p Q. cbn [s_pending]. rewrite in_app_iff, (waits_but s x ND I S p Q). split; [intros [J|[<-|[]]]; [auto|congruence]|auto].
Qed.
Lemma looks_drop i s x fs : NoDup (map p_corr (s_pending s)) -> In x (s_pending s) -> p_stage x <> LookQ -> (forall k, answers_lookup k i = false) -> Looks i s (State (s_run s) fs (but (p_corr x) (s_pending s)) (s_next s)) [].
Proof. intros ND I S A. apply looks_same; auto; [intros f k n []|]. intros p Q. cbn [s_pending]. now apply waits_but. Qed.
Lemma next_statics f s : NoDup (map f_id (s_forwards s)) -> In (static f) (statics s) -> statics (fst (next f s)) = statics s.
Proof.
  intros N I. apply in_map_iff in I as [y [E I]]. assert (Ex : forall g, static g = static f -> map static (set_forward g (s_forwards s)) = map static (s_forwards s)).
  { intros g G. apply set_forward_map; auto. exists y. split; auto. rewrite E, G. split; auto. unfold static in E, G. injection E as E _. injection G as G _. congruence. }
  unfold next. destruct (valid_queues f).
  - unfold dequeue_request. destruct (f_enabled f); [|now apply Ex]. pose proof (dequeue_n_facts (missing f) f s) as X. cbv zeta in X. destruct X as (_ & X & _). unfold statics. rewrite X. now apply Ex.
  - destruct (existsb _ _); [now apply Ex|]. unfold lookup_queues. pose proof (ask_facts (f_id f) (queues_of f) (put_forward f s)) as X. cbv zeta in X. destruct X as (_ & X & _). unfold statics. rewrite X. now apply Ex.
Qed.
(* a flow ends, and the next is begun *)
Lemma looks_finish C st i s x : Inv C s st -> In x (s_pending s) -> p_stage x <> LookQ -> (forall k, answers_lookup k i = false) ->
  exists f, find_forward (p_fwd x) (with_pending (but (p_corr x) (s_pending s)) s) = Some f /\ In f (s_forwards s) /\ f_id f = p_fwd x /\ f_enabled f = true /\
    let r := next (decrement f) (with_pending (but (p_corr x) (s_pending s)) s) in Looks i s (fst r) (snd r).
Proof.
  intros H I S A. pose proof (i_nodup _ _ _ H) as ND. pose proof (inv_nodup_ids _ _ _ H) as NF. destruct (flow_facts C s st x H I S) as (c & y & Cc & Sc & Sy & L & _). destruct (find_forward_static C s st _ _ H Sc) as (f & F & J & E). exists f.
  unfold static, conf_sta in E. injection E as E1 E2 E3 E4 E5 E6. assert (En : f_enabled f = true).
  { rewrite E6. clear - Sy L. assert (NE : st (p_corr x) <> []) by (intro Z; rewrite Z in L; discriminate). clear L. remember (st (p_corr x)) as l eqn:Z. clear Z. induction Sy as [|l i0 e S0 IH F0]; [congruence|]. destruct l as [|z l]; [|apply IH; discriminate]. cbn in F0. destruct e; try contradiction. tauto. }
  split; [exact F|]. split; [auto|]. split; [auto|]. split; [auto|]. cbv zeta. set (s1 := with_pending (but (p_corr x) (s_pending s)) s).
  assert (Ed : f_enabled (decrement f) = true) by (unfold decrement; cbv zeta; destruct (absent _); auto).
  destruct (next_adds (decrement f) s1 [decrement f] (or_introl eq_refl) Ed) as [B D].
  assert (In1 : In (static (decrement f)) (statics s1)) by (rewrite static_decrement; now apply in_map).
  split.
  - intros id k. rewrite (B id k), A. enough (Q : waits id k s1 <-> waits id k s) by tauto. unfold waits. cbn [s1 s_pending with_pending]. split; intros (p & J' & Q & X); exists p; (split; [apply (waits_but s x ND I S p Q); auto|auto]).
  - apply (asks_static _ _ _ D). intros g [<-|[]]. rewrite (next_statics (decrement f) s1); auto.
Qed.
Lemma step_looks C s st i : Inv C s st -> possible i -> (forall l, i = Update l -> forall c, In c l -> C c) -> Looks i s (fst (step i s)) (snd (step i s)).
Proof.
  intros H P U. pose proof (i_nodup _ _ _ H) as ND. pose proof (inv_nodup_ids _ _ _ H) as NF. destruct i as [l|k name q p r|k r|k m|k|k d|k a|k|k code r|k ok|k pr|k|k|k|p|].
  - cbn [step]. unfold update. cbv zeta. match goal with |- context [comply ?x] => destruct (comply_adds x) as (A & B & _); pose proof (comply_facts x) as X; cbv zeta in X; destruct X as (_ & X & _); destruct (comply x) as [s1 ev] end. cbn [fst snd] in *.
    split.
    + intros id k. cbn [answers_lookup]. specialize (A id k). unfold waits in *. cbn [s_pending with_forwards] in *. rewrite A. split; [intros [Y|[n Y]]; [auto|right; exists n; apply in_or_app; auto]|]. intros [[Y _]|[n Y]]; [auto|]. apply in_app_or in Y as [Y|[Y|[]]]; [right; exists n; auto|discriminate].
    + intros f k n I. apply in_app_or in I as [I|[I|[]]]; [|discriminate]. pose proof (asks_static _ (statics (State (run Running (s_run s1)) (s_forwards s1) (s_pending s1) (s_next s1))) _ B) as Y. destruct (Y ltac:(intros g G; unfold statics; cbn [s_forwards]; rewrite X; now apply in_map) f k n I) as (a & Y1 & Y2 & Y3 & Y4). exists a. repeat (split; [solve [auto]|]).
      intros m M. destruct (Y4 m M) as [j J]. exists j. apply in_or_app. auto.
  - cbn [step]. destruct (consume LookQ k s) as [[x s1]|] eqn:E.
    + apply consume_spec in E as (I & SX & K & ->); auto. subst k. assert (Al : forall k, answers_lookup k (QueueFound (p_corr x) name q p r) = (p_corr x =? k)) by reflexivity.
      assert (S0 : forall s', s_pending s' = but (p_corr x) (s_pending s) -> forall e, askless e -> Looks (QueueFound (p_corr x) name q p r) s s' e).
      { intros s' E e N. apply (looks_consumed _ s s' s' x); auto; [|now apply askless_static]. apply adds_same; [auto|reflexivity]. }
      destruct (is_down _); [apply S0; [reflexivity|intros f k n []]|]. destruct (find_forward (p_fwd x) _) as [f|]; [|apply S0; [reflexivity|intros f k n []]].
      assert (Fe : askless (snd (assign name q p r f))). { unfold assign. cbv zeta. intros g k n. destruct (r_name (f_source f) =? name); [destruct r|]; cbn; intuition discriminate. }
      destruct (assign name q p r f) as [f' e]. cbn [fst snd] in Fe. destruct (valid_queues f'); [|apply S0; [reflexivity|auto]].
      destruct (request_adds f' (with_pending (but (p_corr x) (s_pending s)) s)) as [A B]. destruct (dequeue_request f' _) as [s' ev]. cbn [fst snd] in *.
      assert (N : askless (e ++ ev)) by (intros g k n I2; apply in_app_or in I2 as [I2|I2]; [destruct (Fe _ _ _ I2)|destruct (A _ _ _ I2)]).
      apply (looks_consumed _ s (with_pending (but (p_corr x) (s_pending s)) s) s' x); auto; [now apply adds_same|now apply askless_static].
    + apply looks_same; [intros f j n []|reflexivity|]. intros id j (y & I & S & F & K). cbn. apply Z.eqb_neq. intro Q. apply (consume_none _ _ _ E y I S). congruence.
  - cbn [step]. destruct r; [apply looks_same; [intros f j n []|reflexivity|auto]|]. destruct (consume LookQ k s) as [[x s1]|] eqn:E.
    + apply consume_spec in E as (I & SX & K & ->); auto. subst k. apply (looks_consumed _ s (with_pending (but (p_corr x) (s_pending s)) s) _ x); auto; [|intros f k n []]. apply adds_same; [intros f k n []|reflexivity].
    + apply looks_same; [intros f j n []|reflexivity|]. intros id j (y & I & S & F & K). cbn. apply Z.eqb_neq. intro Q. apply (consume_none _ _ _ E y I S). congruence.
  - cbn [step]. destruct (consume Deq k s) as [[x s1]|] eqn:E; [|apply looks_same; [intros f j n []|reflexivity|auto]]. apply consume_spec in E as (I & SX & K & ->); auto. subst k. assert (Nx : p_stage x <> LookQ) by (rewrite SX; discriminate).
    destruct m as [data|]; [|apply (looks_advance _ s x); cbn; auto; discriminate]. destruct (is_down _); [apply (looks_advance _ s x); cbn; auto; discriminate|].
    destruct (find_forward (p_fwd x) _) as [f|]; [|now apply (looks_drop _ s x)]. destruct (f_service f) as [sv|]; [apply (looks_advance _ s x); cbn; auto; discriminate|].
    destruct (f_dest f) as [[d delay]|]; [apply (looks_advance _ s x); cbn; auto; discriminate|now apply (looks_drop _ s x)].
  - cbn [step]. destruct (consume Deq k s) as [[x s1]|] eqn:E; [|apply looks_same; [intros f j n []|reflexivity|auto]]. apply consume_spec in E as (I & SX & K & ->); auto. subst k. assert (Nx : p_stage x <> LookQ) by (rewrite SX; discriminate).
    destruct (find_forward (p_fwd x) _) as [f|]; now apply (looks_drop _ s x).
  - cbn [step]. destruct d; [|apply looks_same; [intros f j n []|reflexivity|auto]]. destruct (consume Deq k s) as [[x s1]|] eqn:E; [|apply looks_same; [intros f j n []|reflexivity|auto]]. apply consume_spec in E as (I & SX & K & ->); auto. subst k. assert (Nx : p_stage x <> LookQ) by (rewrite SX; discriminate).
    destruct (looks_finish C st (Forgotten (p_corr x) true) s x H I Nx ltac:(reflexivity)) as (f & F & _ & _ & _ & L). rewrite F. exact L.
  - cbn [step]. destruct (consume LookS k s) as [[x s1]|] eqn:E; [|apply looks_same; [intros f j n []|reflexivity|auto]]. apply consume_spec in E as (I & SX & K & ->); auto. subst k. assert (Nx : p_stage x <> LookQ) by (rewrite SX; discriminate).
    destruct a as [[sv p]|]; (apply (looks_advance _ s x); cbn; auto; discriminate).
  - cbn [step]. destruct (consume Disc k s) as [[x s1]|] eqn:E; [|apply looks_same; [intros f j n []|reflexivity|auto]]. apply consume_spec in E as (I & SX & K & ->); auto. subst k. assert (Nx : p_stage x <> LookQ) by (rewrite SX; discriminate). apply (looks_advance _ s x); cbn; auto; discriminate.
  - cbn [step]. destruct (consume Calling k s) as [[x s1]|] eqn:E; [|apply looks_same; [intros f j n []|reflexivity|auto]]. apply consume_spec in E as (I & SX & K & ->); auto. subst k. assert (Nx : p_stage x <> LookQ) by (rewrite SX; discriminate).
    destruct (find_forward (p_fwd x) _) as [f|]; [|now apply (looks_drop _ s x)]. destruct (negb (code =? 0)); [|destruct (f_dest f) as [[d delay]|]]; (apply (looks_advance _ s x); cbn; auto; discriminate).
  - cbn [step]. destruct (consume Enq k s) as [[x s1]|] eqn:E; [|apply looks_same; [intros f j n []|reflexivity|auto]]. apply consume_spec in E as (I & SX & K & ->); auto. subst k. assert (Nx : p_stage x <> LookQ) by (rewrite SX; discriminate).
    destruct ok; [apply (looks_advance _ s x); cbn; auto; discriminate|]. destruct (find_forward (p_fwd x) _) as [f|]; (apply (looks_advance _ s x); cbn; auto; discriminate).
  - cbn [step]. destruct pr; [apply looks_same; [intros f j n []|reflexivity|auto]|]. destruct (consume Com k s) as [[x s1]|] eqn:E; [|apply looks_same; [intros f j n []|reflexivity|auto]]. apply consume_spec in E as (I & SX & K & ->); auto. subst k. assert (Nx : p_stage x <> LookQ) by (rewrite SX; discriminate).
    destruct (looks_finish C st (Committed (p_corr x) false) s x H I Nx ltac:(reflexivity)) as (f & F & _ & _ & _ & L). rewrite F. exact L.
  - cbn [step]. destruct (consume Rol k s) as [[x s1]|] eqn:E; [|apply looks_same; [intros f j n []|reflexivity|auto]]. apply consume_spec in E as (I & SX & K & ->); auto. subst k. assert (Nx : p_stage x <> LookQ) by (rewrite SX; discriminate).
    destruct (looks_finish C st (RolledBack (p_corr x)) s x H I Nx ltac:(reflexivity)) as (f & F & _ & _ & _ & L). rewrite F. exact L.
  - cbn [step]. apply looks_same; [intros f j n []| |auto]. intros p S. cbn [fst s_pending with_pending]. rewrite filter_In. split; [tauto|]. intro I. split; auto. unfold is. now rewrite S.
  - cbn [step]. destruct (consume Enq k s) as [[x s1]|] eqn:E; [|apply looks_same; [intros f j n []|reflexivity|auto]]. apply consume_spec in E as (I & SX & K & ->); auto. subst k. assert (Nx : p_stage x <> LookQ) by (rewrite SX; discriminate).
    destruct (find_forward (p_fwd x) s) as [f|]; [|apply looks_same; [intros f j n []|reflexivity|auto]]. destruct (f_service f); [|apply looks_same; [intros g j n []|reflexivity|auto]]. apply (looks_advance _ s x); cbn; auto; discriminate.
  - assert (N : askless (snd (step (Dead p) s)) /\ s_pending (fst (step (Dead p) s)) = s_pending s).
    { cbn [step]. generalize (queue_forwards s ++ service_forwards s) as l. intro l. generalize s at 1 2 3 as s0. induction l as [|f l IH]; intro s0; cbn [each]; [split; [intros f k n []|reflexivity]|].
      assert (X : askless (snd (dead_one p f s0)) /\ s_pending (fst (dead_one p f s0)) = s_pending s0).
      { unfold dead_one. cbv zeta. destruct (_ || _); [|split; [intros g k n []|reflexivity]]. destruct (match f_dest f with Some (d, _) => _ | None => _ end); cbn [fst snd]; (split; [|reflexivity]); intros g k n I; rewrite !in_app_iff in I; repeat (destruct I as [I|I]); apply in_map_iff in I as [y [I _]]; discriminate. }
      destruct X as [X1 X2]. destruct (dead_one p f s0) as [s2 e2]. specialize (IH s2). destruct (each (dead_one p) l s2) as [s3 e3]. cbn [fst snd] in *. destruct IH as [I1 I2]. split; [|congruence]. intros g k n I. apply in_app_or in I as [I|I]; [destruct (X1 _ _ _ I)|destruct (I1 _ _ _ I)]. }
    destruct N as [N1 N2]. apply looks_same; auto. rewrite N2. reflexivity.
  - cbn [step]. match goal with |- context [comply ?x] => destruct (comply_adds x) as (A & B & _); pose proof (comply_facts x) as X; cbv zeta in X; destruct X as (_ & X & _); destruct (comply x) as [s1 ev] end. cbn [fst snd] in *. split.
    + intros id k. cbn [answers_lookup]. specialize (A id k). unfold waits in *. cbn [s_pending] in *. rewrite A. tauto.
    + apply (asks_static _ _ _ B). intros g G. unfold statics. rewrite X. now apply in_map.
Qed.
Lemma waiting_snoc f k h i ev : waiting f k (h ++ [(i, ev)]) <-> (waiting f k h /\ answers_lookup k i = false) \/ exists name, In (AskQueue f k name) ev.
Proof.
  split.
  - intro W. inversion W as [h0 i0 ev0 name I E|h0 i0 ev0 W0 A E]; apply app_inj_tail in E as [-> E]; injection E as -> ->; [right; eauto|auto].
  - intros [[W A]|[n I]]; [now apply waiting_since|now apply (waiting_now f k h i ev n)].
Qed.
Lemma not_waiting f k : ~ waiting f k [].
Proof. intro W. inversion W as [h i ev n I E|h i ev W0 A E]; symmetry in E; now apply app_cons_not_nil in E. Qed.
Lemma reach_looks s h i : reach s h -> possible i -> Looks i s (fst (step i s)) (snd (step i s)).
Proof.
  intros R P. apply (step_looks (conf_in (h ++ [(i, [])])) s (fun k => story_of k h)); auto.
  - apply (inv_mono (conf_in h)); [|now apply reach_inv]. intros c [(l & A & B) Ok]. split; auto. exists l. split; auto. rewrite inputs_app. apply in_or_app; auto.
  - intros l -> c I. split; [|now apply P]. exists l. split; auto. rewrite inputs_app. apply in_or_app. right. now left.
Qed.
(* a lookup that waits is pending *)
Lemma reach_waiting s h : reach s h -> forall f k, waiting f k h <-> waits f k s.
Proof.
  intro R. induction R as [|s h i R IH P]; intros f k.
  - split; [intro W; destruct (not_waiting _ _ W)|intros (p & [] & _)].
  - rewrite waiting_snoc, IH. symmetry. apply (reach_looks s h i R P).
Qed.
