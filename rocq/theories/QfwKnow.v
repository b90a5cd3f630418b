(* Where the requests go, and that the flows are begun. *)
From Coq Require Import ZArith List Bool Lia.
From Verif Require Import QfwModel QfwSpec QfwProofs QfwInv QfwFlow QfwCount QfwShape QfwStop QfwEnd QfwQuiet QfwLook QfwRef.
Import ListNotations.
Local Open Scope Z_scope.

Lemma reach_grows s h i : reach s h -> grows i (s_forwards s) (s_forwards (fst (step i s))).
Proof. intro R. apply (step_grows _ s _ i (reach_inv s h R)). Qed.
(* ---- the addresses are those that are told ---- *)
Lemma told_more name q p rem h x : told name q p rem h -> told name q p rem (h ++ [x]).
Proof. intros [k I]. exists k. rewrite inputs_app. apply in_or_app; auto. Qed.
Lemma told_now name q p rem h k ev : told name q p rem (h ++ [(QueueFound k name q p rem, ev)]).
Proof. exists k. rewrite inputs_app. apply in_or_app. right. now left. Qed.
Definition Told (h : history) (f : forward) : Prop :=
  (r_ipc (f_source f) <> 0 -> told (r_name (f_source f)) (r_id (f_source f)) (r_ipc (f_source f)) false h)
  /\ forall d x, f_dest f = Some (d, x) -> r_ipc d <> 0 -> exists rem, told (r_name d) (r_id d) (r_ipc d) rem h.
Lemma reach_told s h : reach s h -> forall f, In f (s_forwards s) -> Told h f.
Proof.
  intro R. induction R as [|s h i R IH P]; intros f' I; [destruct I|]. destruct (grows_back _ _ _ _ (reach_grows s h i R) I) as [(f & J & _ & Rs & Rd)|[F1 F2]].
  - destruct (IH f J) as [T1 T2]. split.
    + intro N. destruct Rs as [E|[(_ & _ & E)|(k & q & p & rem & -> & E & Z)]]; [|congruence|].
      * rewrite E in *. now apply told_more, T1.
      * rewrite E. cbn. rewrite (Z eq_refl). apply told_now.
    + intros d x E N. unfold destrel in Rd. rewrite E in Rd. destruct (f_dest f) as [[d0 x0]|] eqn:Q; [|contradiction]. destruct Rd as [_ [E'|[(_ & _ & E')|(k & q & p & rem & -> & E' & _)]]]; [|congruence|].
      * rewrite E' in *. destruct (T2 d0 x0 eq_refl N) as [rem T]. exists rem. now apply told_more.
      * rewrite E'. cbn. exists rem. apply told_now.
  - split; [congruence|]. intros d x E N. rewrite E in F2. congruence.
Qed.
Lemma dequeue_told s h i ev f p k t q name : reach s (h ++ [(i, ev)]) -> In (Dequeue f p k t q name) ev -> p <> 0 /\ q <> 0 /\ told name q p false (h ++ [(i, ev)]).
Proof.
  intros R I. destruct (reach_snoc _ _ _ _ R) as (s0 & R0 & P & -> & ->). destruct (told_b i) eqn:T.
  - exfalso. destruct i; try discriminate T; cbn [step] in I.
    + unfold update in I. cbv zeta in I. match type of I with context [comply ?x] => pose proof (comply_facts x) as X; cbv zeta in X; destruct X as (_ & _ & _ & X & _); destruct (comply x) as [s1 ev1] end. cbn [snd] in *. apply in_app_or in I as [I|[I|[]]]; [exact (X _ I)|discriminate].
    + match type of I with context [comply ?x] => pose proof (comply_facts x) as X; cbv zeta in X; destruct X as (_ & _ & _ & X & _) end. exact (X _ I).
  - destruct (step_shape _ _ _ i (reach_inv s0 h R0) T) as [_ _ _ K]. destruct (K _ I) as (g & G & _ & _ & _ & -> & -> & -> & V). unfold valid_queues in V. apply andb_true_iff in V as [V _]. unfold ref_valid in V. apply andb_true_iff in V as [V1 V2]. apply negb_true_iff, Z.eqb_neq in V1, V2. split; [auto|split; [auto|]]. now apply (reach_told _ _ R g G).
Qed.
Lemma dequeue_n_enq n : forall f s p k t q name m delay, ~ In (Enqueue p k t q name m delay) (snd (dequeue_n n f s)).
Proof. intros f s p k t q name m delay I. pose proof (dequeue_n_facts n f s) as X. cbv zeta in X. destruct X as (_ & _ & _ & X). destruct (X _ I) as [[j E] _]. discriminate. Qed.
Lemma next_enq f s p k t q name m delay : ~ In (Enqueue p k t q name m delay) (snd (next f s)).
Proof.
  unfold next, dequeue_request, lookup_queues. destruct (valid_queues f); [destruct (f_enabled f); [apply dequeue_n_enq|intros []]|]. destruct (existsb _ _); [intros []|]. intro I. pose proof (ask_facts (f_id f) (queues_of f) (put_forward f s)) as X. cbv zeta in X. destruct X as (_ & _ & _ & X). destruct (X _ I) as (j & n & E). discriminate.
Qed.
Lemma enqueue_from C s st i p k t q name m delay : Inv C s st -> In (Enqueue p k t q name m delay) (snd (step i s)) -> exists f d, In f (s_forwards s) /\ f_dest f = Some (d, delay) /\ d = Ref name q p.
Proof.
  intros H. pose proof (i_nodup _ _ _ H) as ND. destruct i as [l|k0 n0 q0 p0 r|k0 r|k0 m0|k0|k0 d|k0 a|k0|k0 code r|k0 ok|k0 pr|k0|k0|k0|p0|]; cbn [step]; intro I.
  - exfalso. unfold update in I. cbv zeta in I. match type of I with context [comply ?x] => pose proof (comply_facts x) as X; cbv zeta in X; destruct X as (_ & _ & _ & X & _); destruct (comply x) as [s1 ev1] end. cbn [snd] in *. apply in_app_or in I as [I|[I|[]]]; [exact (X _ I)|discriminate].
  - exfalso. destruct (consume LookQ k0 s) as [[x s1]|]; [|destruct I]. destruct (is_down s1); [destruct I|]. destruct (find_forward (p_fwd x) s1) as [f|]; [|destruct I].
    assert (Fe : forall e, In e (snd (assign n0 q0 p0 r f)) -> match e with Invalid _ => True | _ => False end).
    { unfold assign. cbv zeta. destruct (r_name (f_source f) =? n0); [destruct r|]; cbn; intros e [<-|[]] || intros e []; exact Logic.I. }
    destruct (assign n0 q0 p0 r f) as [f' e]. cbn [snd] in Fe. destruct (valid_queues f'); [|exact (Fe _ I)]. unfold dequeue_request in I. destruct (f_enabled f').
    + pose proof (dequeue_n_enq (missing f') f' s1 p k t q name m delay) as N. destruct (dequeue_n (missing f') f' s1) as [s2 ev]. cbn [snd] in *. apply in_app_or in I as [I|I]; [exact (Fe _ I)|auto].
    + cbn [snd] in I. rewrite app_nil_r in I. exact (Fe _ I).
  - exfalso. destruct r; [destruct I|]. destruct (consume LookQ k0 s) as [[x s1]|]; destruct I.
  - destruct (consume Deq k0 s) as [[x s1]|] eqn:E; [|destruct I]. apply consume_spec in E as (_ & _ & _ & ->); auto. destruct m0 as [data|]; [|destruct I as [I|[]]; discriminate]. destruct (is_down _); [destruct I as [I|[]]; discriminate|].
    destruct (find_forward (p_fwd x) _) as [f|] eqn:F; [|destruct I]. apply find_forward_some in F as [F _]. cbn in F. destruct (f_service f); [destruct I as [I|[]]; discriminate|]. destruct (f_dest f) as [[d y]|] eqn:D; [|destruct I]. destruct I as [I|[]]. injection I as <- <- <- <- <- <- <-. exists f, d. split; [auto|split; [auto|]]. now destruct d.
  - exfalso. destruct (consume Deq k0 s) as [[x s1]|]; [|destruct I]. destruct (find_forward (p_fwd x) s1); destruct I.
  - exfalso. destruct d; [|destruct I]. destruct (consume Deq k0 s) as [[x s1]|]; [|destruct I]. destruct (find_forward (p_fwd x) s1); [|destruct I]. now apply next_enq in I.
  - exfalso. destruct (consume LookS k0 s) as [[x s1]|]; [|destruct I]. destruct a as [[]|]; destruct I as [I|[]]; discriminate.
  - exfalso. destruct (consume Disc k0 s) as [[x s1]|]; [|destruct I]. destruct I as [I|[]]; discriminate.
  - destruct (consume Calling k0 s) as [[x s1]|] eqn:E; [|destruct I]. apply consume_spec in E as (_ & _ & _ & ->); auto. destruct (find_forward (p_fwd x) _) as [f|] eqn:F; [|destruct I]. apply find_forward_some in F as [F _]. cbn in F. destruct (negb (code =? 0)); [destruct I as [I|[]]; discriminate|].
    destruct (f_dest f) as [[d y]|] eqn:D; [|destruct I as [I|[]]; discriminate]. destruct I as [I|[]]. injection I as <- <- <- <- <- <- <-. exists f, d. split; [auto|split; [auto|]]. now destruct d.
  - exfalso. destruct (consume Enq k0 s) as [[x s1]|]; [|destruct I]. destruct ok; destruct I as [I|[]]; discriminate.
  - exfalso. destruct pr; [destruct I|]. destruct (consume Com k0 s) as [[x s1]|]; [|destruct I]. destruct (find_forward (p_fwd x) s1); [|destruct I]. now apply next_enq in I.
  - exfalso. destruct (consume Rol k0 s) as [[x s1]|]; [|destruct I]. destruct (find_forward (p_fwd x) s1); [|destruct I]. now apply next_enq in I.
  - destruct I.
  - exfalso. destruct (consume Enq k0 s) as [[x s1]|]; [|destruct I]. destruct (find_forward (p_fwd x) s) as [f|]; [|destruct I]. destruct (f_service f); [|destruct I]. destruct I as [I|[]]; discriminate.
  - exfalso. destruct (inv_dead C s st p0 H) as [_ F]. cbn [step] in F. assert (J : In (Enqueue p k t q name m delay) (filter (about k) (snd (each (dead_one p0) (queue_forwards s ++ service_forwards s) s)))) by (apply filter_In; split; [auto|apply Z.eqb_refl]). rewrite (F k) in J. destruct J.
  - exfalso. match type of I with context [comply ?x] => pose proof (comply_facts x) as X; cbv zeta in X; destruct X as (_ & _ & _ & X & _) end. exact (X _ I).
Qed.
Lemma enqueue_told s h i ev p k t q name m delay : reach s (h ++ [(i, ev)]) -> In (Enqueue p k t q name m delay) ev -> p <> 0 -> exists rem, told name q p rem h.
Proof.
  intros R I N. destruct (reach_snoc _ _ _ _ R) as (s0 & R0 & P & -> & ->). destruct (enqueue_from _ _ _ i _ _ _ _ _ _ _ (reach_inv s0 h R0) I) as (f & d & F & D & ->). destruct (reach_told _ _ R0 f F) as [_ T]. exact (T _ _ D N).
Qed.
(* the address that has just been told is the one that is used *)
Lemma dequeue_now s h k name q p ev f p' k' t q' : reach s (h ++ [(QueueFound k name q p false, ev)]) -> In (Dequeue f p' k' t q' name) ev -> p' = p /\ q' = q.
Proof.
  intros R I. destruct (reach_snoc _ _ _ _ R) as (s0 & R0 & P & -> & ->). clear R. pose proof (reach_inv s0 h R0) as H. pose proof (i_nodup _ _ _ H) as ND. cbn [step] in I. destruct (consume LookQ k s0) as [[x s1]|] eqn:E; [|destruct I]. destruct (is_down s1); [destruct I|]. destruct (find_forward (p_fwd x) s1) as [g|] eqn:F; [|destruct I].
  unfold assign in I. cbv zeta in I. destruct (r_name (f_source g) =? name) eqn:Q.
  - match type of I with context [valid_queues ?a] => destruct (valid_queues a); [|destruct I]; unfold dequeue_request in I; destruct (f_enabled a); [|destruct I]; pose proof (dequeue_n_facts (missing a) a s1) as X; destruct (dequeue_n (missing a) a s1) as [s2 e2] end.
    cbv zeta in X. cbn [fst snd app] in *. destruct X as (_ & _ & _ & X). destruct (X _ I) as [[j J] _]. injection J as -> -> -> -> -> . auto.
  - apply Z.eqb_neq in Q. exfalso. match type of I with context [valid_queues ?a] => destruct (valid_queues a); [|destruct I]; unfold dequeue_request in I; destruct (f_enabled a); [|destruct I]; pose proof (dequeue_n_facts (missing a) a s1) as X; destruct (dequeue_n (missing a) a s1) as [s2 e2] end.
    cbv zeta in X. cbn [fst snd app] in *. destruct X as (_ & _ & _ & X). destruct (X _ I) as [[j J] _]. cbn in J. injection J as J1 J2 J3 J4 J5 J6. congruence.
Qed.
(* ---- an answer gives the next request ---- *)
Lemma answer_next s h f k i : reach s h -> active f k h -> answers k (withdrawn k h) (last_of (story_of k h)) i -> exists e, In e (snd (step i s)) /\ about k e = true.
Proof.
  intros R A W. apply (active_pending s h _ _ R) in A as (p & I & <- & F & N). pose proof (reach_inv s h R) as H. pose proof (i_nodup _ _ _ H) as ND. destruct (flow_facts _ _ _ p H I N) as (c & [j e] & Cc & Sc & Sy & L & M & Tr). destruct (find_forward_static _ _ _ _ _ H Sc) as (g & Fg & G & Eg).
  unfold static, conf_sta in Eg. injection Eg as E1 E2 E3 E4 E5 E6. rewrite L in W. destruct (proj1 (reach_withdrawn s h R) p I) as [W1 W2]. unfold matches in M. cbn [snd fst] in M.
  assert (Cs : forall st, p_stage p = st -> consume st (p_corr p) s = Some (p, with_pending (but (p_corr p) (s_pending s)) s)) by (intros st Q; apply consume_in; auto).
  destruct (p_stage p) eqn:S; try congruence; destruct e; try contradiction; cbn in W; try contradiction.
  - destruct W as [m ->]. cbn [step]. rewrite (Cs Deq eq_refl). destruct m as [data|]; [|eexists; split; [left; reflexivity|apply Z.eqb_refl]]. destruct (is_down _); [eexists; split; [left; reflexivity|apply Z.eqb_refl]|]. rewrite find_but, Fg. destruct (f_service g) eqn:Sv; [eexists; split; [left; reflexivity|apply Z.eqb_refl]|].
    destruct (f_dest g) as [[d y]|] eqn:D; [eexists; split; [left; reflexivity|apply Z.eqb_refl]|]. exfalso. destruct Cc as [_ Ok]. cbn in E5. apply Ok; congruence.
  - destruct (withdrawn (p_corr p) h) eqn:Wd; [exfalso; apply (W1 (or_intror eq_refl)); now apply withdrawn_spec|]. destruct W as [a ->]. cbn [step]. rewrite (Cs LookS eq_refl). destruct a as [[sv q]|]; (eexists; split; [left; reflexivity|apply Z.eqb_refl]).
  - rewrite (proj2 (withdrawn_spec _ _) (W2 eq_refl)) in W. subst i. cbn [step]. rewrite (Cs Disc eq_refl). eexists; split; [left; reflexivity|apply Z.eqb_refl].
  - destruct W as (code & r & ->). cbn [step]. rewrite (Cs Calling eq_refl), find_but, Fg. destruct (negb (code =? 0)); [eexists; split; [left; reflexivity|apply Z.eqb_refl]|]. destruct (f_dest g) as [[d y]|]; (eexists; split; [left; reflexivity|apply Z.eqb_refl]).
  - destruct W as [ok ->]. cbn [step]. rewrite (Cs Enq eq_refl). destruct ok; (eexists; split; [left; reflexivity|apply Z.eqb_refl]).
Qed.
Lemma down_shutdown s h : reach s h -> is_down s = true -> In Shutdown (inputs h).
Proof.
  intros R D1. induction R as [|s h i R IH P]; [discriminate|]. rewrite inputs_app. apply in_or_app. destruct (told_b i) eqn:T.
  - destruct i; try discriminate T; [|right; now left]. left. apply IH. cbn [step] in D1. unfold update in D1. cbv zeta in D1. match type of D1 with context [comply ?x] => pose proof (comply_facts x) as X; cbv zeta in X; destruct (comply x) as [s1 ev1] end. cbn [fst] in *. destruct X as (X & _). unfold is_down in *. cbn [s_run] in D1. rewrite X in D1. cbn in D1. destruct (s_run s); auto; discriminate.
  - left. apply IH. pose proof (step_shape _ _ _ i (reach_inv s h R) T) as [S1 _ _ _]. unfold is_down in *. now rewrite S1 in D1.
Qed.
Lemma shutdown_down s h : reach s h -> In Shutdown (inputs h) -> is_down s = true.
Proof.
  intro R. induction R as [|s h i R IH P]; intro I; [destruct I|]. rewrite inputs_app in I. apply in_app_or in I as [I|[I|[]]].
  - specialize (IH I). destruct (told_b i) eqn:T; [|pose proof (step_shape _ _ _ i (reach_inv s h R) T) as [S1 _ _ _]; unfold is_down in *; now rewrite S1]. destruct i; try discriminate T; cbn [step].
    + unfold update. cbv zeta. match goal with |- context [comply ?x] => pose proof (comply_facts x) as X; cbv zeta in X; destruct (comply x) as [s1 ev1] end. cbn [fst] in *. destruct X as (X & _). unfold is_down in *. cbn [s_run]. rewrite X. cbn. destruct (s_run s); auto; discriminate.
    + pose proof (shutdown_step s h R) as X. cbv zeta in X. tauto.
  - cbn [fst] in I. subst i. pose proof (shutdown_step s h R) as X. cbv zeta in X. tauto.
Qed.
Lemma kept s h k m ev t : reach s (h ++ [(Dequeued k (Some m), ev)]) -> In (Rollback k t) ev -> In Shutdown (inputs h).
Proof.
  intros R I. destruct (reach_snoc _ _ _ _ R) as (s0 & R0 & P & -> & ->). apply (down_shutdown s0 h R0). cbn [step] in I. destruct (consume Deq k s0) as [[x s1]|] eqn:E; [|destruct I]. apply consume_spec in E as (_ & _ & _ & ->); [|apply (i_nodup _ _ _ (reach_inv s0 h R0))].
  change (is_down (with_pending (but k (s_pending s0)) s0)) with (is_down s0) in I. destruct (is_down s0); auto. destruct (find_forward (p_fwd x) _) as [f|]; [|destruct I]. destruct (f_service f); [destruct I as [I|[]]; discriminate|]. destruct (f_dest f) as [[]|]; [destruct I as [I|[]]; discriminate|destruct I].
Qed.
