(* What a step does, but for a configuration or a shutdown, to the forwards and the pendings. *)
From Coq Require Import ZArith List Bool Lia.
From Verif Require Import QfwModel QfwSpec QfwProofs QfwInv QfwFlow QfwCount.
Import ListNotations.
Local Open Scope Z_scope.

Definition dyn (f : forward) : Z * (Z * option Z) * nat := (f_id f, (f_alias f, f_service f), f_configured f).
Lemma set_forward_map {A} (g : forward -> A) f l : NoDup (map f_id l) -> (exists y, In y l /\ f_id y = f_id f /\ g y = g f) -> map g (set_forward f l) = map g l.
Proof.
  induction l as [|x l IH]; cbn [set_forward map]; auto. intros N (y & I & E & G). inversion N as [|? ? X Y]; subst. destruct (f_id x =? f_id f) eqn:Q.
  - apply Z.eqb_eq in Q. cbn. destruct I as [->|I]; [now rewrite G|]. exfalso. apply X. rewrite Q, <- E. now apply in_map.
  - apply Z.eqb_neq in Q. cbn. f_equal. apply IH; auto. destruct I as [->|I]; [congruence|]. exists y. auto.
Qed.
Lemma in_set f l : (exists y, In y l /\ f_id y = f_id f) -> In f (set_forward f l).
Proof.
  induction l as [|x l IH]; cbn; [intros (y & [] & _)|]. intros (y & I & E). destruct (f_id x =? f_id f) eqn:Q; [now left|]. right. apply IH. destruct I as [->|I]; [apply Z.eqb_neq in Q; congruence|exists y; auto].
Qed.
Lemma dequeue_n_facts n : forall f s, let r := dequeue_n n f s in
  s_run (fst r) = s_run s /\ s_forwards (fst r) = set_forward (with_running (f_running f + n) f) (s_forwards s)
  /\ (forall p, In p (s_pending (fst r)) -> In p (s_pending s) \/ (s_next s <= p_corr p /\ p_stage p = Deq))
  /\ (forall e, In e (snd r) -> (exists k, e = Dequeue (f_id f) (r_ipc (f_source f)) k (k + 1) (r_id (f_source f)) (r_name (f_source f))) /\ n <> O).
Proof.
  induction n as [|n IH]; intros f s; cbn [dequeue_n].
  - cbv zeta. cbn [fst snd]. split; [auto|split; [|split; [auto|intros e []]]]. cbn. rewrite Nat.add_0_r. now destruct f.
  - match goal with |- context [dequeue_n n ?a ?b] => specialize (IH a b); destruct (dequeue_n n a b) as [s2 ev] end. cbv zeta in *. cbn [fst snd] in *. destruct IH as (A & B & D & E). cbn [s_run s_forwards s_pending s_next f_running with_running] in *.
    split; [auto|split; [|split]].
    + rewrite B. f_equal. unfold with_running. cbn. f_equal. lia.
    + intros p I. destruct (D p I) as [J|[J K]]; [|right; split; [lia|auto]]. apply in_app_or in J as [J|[<-|[]]]; [auto|right; cbn; split; [lia|auto]].
    + intros e [<-|I]; [split; [eauto|discriminate]|]. destruct (E e I) as [[k Q] _]. split; [exists k; exact Q|discriminate].
Qed.
Lemma ask_facts id names : forall s, let r := ask_queues id names s in
  s_run (fst r) = s_run s /\ s_forwards (fst r) = s_forwards s /\ (forall p, In p (s_pending (fst r)) -> In p (s_pending s) \/ (s_next s <= p_corr p /\ p_stage p = LookQ))
  /\ (forall e, In e (snd r) -> exists k name, e = AskQueue id k name).
Proof.
  induction names as [|n names IH]; intro s; cbn [ask_queues].
  - cbv zeta. cbn [fst snd]. split; [auto|split; [auto|split; [auto|intros e []]]].
  - match goal with |- context [ask_queues id names ?b] => specialize (IH b); destruct (ask_queues id names b) as [s2 ev] end. cbv zeta in *. cbn [fst snd] in *. destruct IH as (A & B & D & E). cbn [s_run s_forwards s_pending s_next] in *.
    split; [auto|split; [auto|split]].
    + intros p I. destruct (D p I) as [J|[J K]]; [|right; split; [lia|auto]]. apply in_app_or in J as [J|[<-|[]]]; [auto|right; cbn; split; [lia|auto]].
    + intros e [<-|I]; [eauto|auto].
Qed.

Definition trans (down : bool) (a b : stage) : Prop :=
  match a, b with
  | Deq, LookS | Deq, Enq => down = false
  | Deq, Rol | LookS, Calling | LookS, Rol | Disc, Rol | Calling, Enq | Calling, Com | Calling, Rol | Enq, Com | Enq, Rol => True
  | _, _ => False
  end.
Record Shape (s s' : state) (ev : list effect) : Prop := {
  h_run : s_run s' = s_run s;
  h_dyn : map dyn (s_forwards s') = map dyn (s_forwards s);
  h_pend : forall p, In p (s_pending s') -> In p (s_pending s) \/ (s_next s <= p_corr p /\ (p_stage p = Deq \/ p_stage p = LookQ))
     \/ exists x, In x (s_pending s) /\ p_corr x = p_corr p /\ p_fwd x = p_fwd p /\ trans (is_down s) (p_stage x) (p_stage p);
  h_keep : forall e, In e ev -> match e with
     | DiscardService _ _ => False
     | AskService _ _ => is_down s = false
     | Call _ k _ _ _ => exists x, In x (s_pending s) /\ p_stage x = LookS /\ p_corr x = k
     | Dequeue id p k t q name => exists f, In f (s_forwards s') /\ f_id f = id /\ f_running f = f_configured f /\ (0 < f_configured f)%nat /\ p = r_ipc (f_source f) /\ q = r_id (f_source f) /\ name = r_name (f_source f) /\ valid_queues f = true
     | _ => True end
}.
Lemma shape_same s : Shape s s [].
Proof. split; auto. intros e []. Qed.
Lemma shape_drop s k fs ev : map dyn fs = map dyn (s_forwards s) -> (forall e, In e ev -> match e with Invalid _ => True | _ => False end) -> Shape s (State (s_run s) fs (but k (s_pending s)) (s_next s)) ev.
Proof.
  intros D E. split; cbn; auto.
  - intros p I. apply in_but in I as [I _]. auto.
  - intros e I. specialize (E e I). destruct e; try contradiction. auto.
Qed.
Lemma shape_advance s x x' e fs : In x (s_pending s) -> p_corr x' = p_corr x -> p_fwd x' = p_fwd x -> trans (is_down s) (p_stage x) (p_stage x') -> map dyn fs = map dyn (s_forwards s) ->
  match e with AskService _ _ => is_down s = false | Call _ k _ _ _ => p_stage x = LookS /\ p_corr x = k | Enqueue _ _ _ _ _ _ _ | Commit _ _ | Rollback _ _ => True | _ => False end ->
  Shape s (State (s_run s) fs (but (p_corr x) (s_pending s) ++ [x']) (s_next s)) [e].
Proof.
  intros I K F T D E. split; cbn [s_run s_forwards s_pending]; auto.
  - intros p J. apply in_app_or in J as [J|[<-|[]]]; [apply in_but in J as [J _]; auto|]. right. right. exists x. auto.
  - intros e' [<-|[]]. destruct e; try contradiction; auto. exists x. destruct E. auto.
Qed.
Lemma shape_next s k f y : NoDup (map f_id (s_forwards s)) -> In y (s_forwards s) -> f_id y = f_id f -> dyn y = dyn f ->
  Shape s (fst (next f (with_pending (but k (s_pending s)) s))) (snd (next f (with_pending (but k (s_pending s)) s))).
Proof.
  intros N I E D. unfold next. destruct (valid_queues f) eqn:V.
  - unfold dequeue_request. destruct (f_enabled f); [|cbn [fst snd]; apply (shape_drop s k); [apply set_forward_map; eauto|intros e []]].
    pose proof (dequeue_n_facts (missing f) f (with_pending (but k (s_pending s)) s)) as X. cbv zeta in X. destruct X as (A & B & P & Q). cbn [s_run s_forwards s_pending s_next with_pending] in *.
    split; auto.
    + rewrite B. apply set_forward_map; auto. exists y. auto.
    + intros p J. destruct (P p J) as [J'|J']; [apply in_but in J' as [J' _]; auto|]. right. left. split; [lia|left; tauto].
    + intros e J. destruct (Q e J) as [[j ->] M]. rewrite B. exists (with_running (f_running f + missing f) f). split; [apply in_set; exists y; auto|]. unfold missing in *. cbn. split; [auto|]. split; [lia|split; [lia|auto]].
  - destruct (existsb _ _); [cbn [fst snd]; apply (shape_drop s k); [apply set_forward_map; eauto|intros e []]|].
    pose proof (ask_facts (f_id f) (queues_of f) (put_forward f (with_pending (but k (s_pending s)) s))) as X. cbv zeta in X. destruct X as (A & B & P & Q). cbn [s_run s_forwards s_pending s_next with_pending put_forward with_forwards] in *. unfold lookup_queues.
    split; auto.
    + rewrite B. apply set_forward_map; auto. exists y. auto.
    + intros p J. destruct (P p J) as [J'|J']; [apply in_but in J' as [J' _]; auto|]. right. left. split; [lia|right; tauto].
    + intros e J. destruct (Q e J) as (j & n & ->). exact Logic.I.
Qed.
Lemma dyn_decrement f : dyn (decrement f) = dyn f.
Proof. unfold decrement. cbv zeta. destruct (absent _); reflexivity. Qed.
Lemma dyn_assign name q p r f : dyn (fst (assign name q p r f)) = dyn f.
Proof. unfold assign. cbv zeta. destruct (r_name (f_source f) =? name); [destruct r|]; reflexivity. Qed.
Definition told_b (i : input) : bool := match i with Update _ | Shutdown => true | _ => false end.
Lemma step_shape C s st i : Inv C s st -> told_b i = false -> Shape s (fst (step i s)) (snd (step i s)).
Proof.
  intros H T. pose proof (i_nodup _ _ _ H) as ND. pose proof (inv_nodup_ids _ _ _ H) as NF. destruct i as [l|k name q p r|k r|k m|k|k d|k a|k|k code r|k ok|k pr|k|k|k|p|]; try discriminate T; clear T.
  - cbn [step]. destruct (consume LookQ k s) as [[x s1]|] eqn:E; [|apply shape_same]. apply consume_spec in E as (I & SX & Kx & ->); auto. subst k.
    destruct (is_down _) eqn:Dn; [apply (shape_drop s _ (s_forwards s)); auto; intros e []|]. destruct (find_forward (p_fwd x) _) as [f|] eqn:F; [|apply (shape_drop s _ (s_forwards s)); auto; intros e []].
    apply find_forward_some in F as [F1 F2]. cbn in F1. destruct (running_assign name q p r f) as [R1 R2]. pose proof (dyn_assign name q p r f) as Df.
    assert (Fe : forall e, In e (snd (assign name q p r f)) -> match e with Invalid _ => True | _ => False end).
    { unfold assign. cbv zeta. destruct (r_name (f_source f) =? name); [destruct r|]; cbn; intros e [<-|[]] || intros e []; exact Logic.I. }
    destruct (assign name q p r f) as [f' e]. cbn [fst snd] in *. destruct (valid_queues f') eqn:V.
    + unfold dequeue_request. destruct (f_enabled f'); [|cbn [fst snd]; rewrite app_nil_r; apply (shape_drop s); auto; apply set_forward_map; eauto].
      pose proof (dequeue_n_facts (missing f') f' (with_pending (but (p_corr x) (s_pending s)) s)) as X. cbv zeta in X. destruct X as (A & B & P & Q). destruct (dequeue_n _ _ _) as [s2 ev]. cbn [fst snd s_run s_forwards s_pending s_next with_pending] in *.
      split; auto.
      * rewrite B. apply set_forward_map; auto. exists f. auto.
      * intros y J. destruct (P y J) as [J'|J']; [apply in_but in J' as [J' _]; auto|]. right. left. split; [lia|left; tauto].
      * intros y J. apply in_app_or in J as [J|J]; [specialize (Fe y J); destruct y; try contradiction; auto|]. destruct (Q y J) as [[j ->] M]. rewrite B. exists (with_running (f_running f' + missing f') f'). split; [apply in_set; exists f; auto|]. unfold missing in *. cbn. split; [auto|]. split; [lia|split; [lia|auto]].
    + apply (shape_drop s); auto. apply set_forward_map; auto. exists f. auto.
  - cbn [step]. destruct r; [apply shape_same|]. destruct (consume LookQ k s) as [[x s1]|] eqn:E; [|apply shape_same]. apply consume_spec in E as (I & SX & Kx & ->); auto. apply (shape_drop s _ (s_forwards s)); auto; intros e [].
  - cbn [step]. destruct (consume Deq k s) as [[x s1]|] eqn:E; [|apply shape_same]. apply consume_spec in E as (I & SX & Kx & ->); auto. subst k.
    destruct m as [data|]; [|apply (shape_advance s x _ _ (s_forwards s)); auto; cbn; rewrite SX; exact Logic.I].
    change (is_down (with_pending (but (p_corr x) (s_pending s)) s)) with (is_down s). destruct (is_down s) eqn:Dn; [apply (shape_advance s x _ _ (s_forwards s)); auto; cbn; rewrite SX; exact Logic.I|].
    destruct (find_forward (p_fwd x) _) as [f|]; [|apply (shape_drop s _ (s_forwards s)); auto; intros e []].
    destruct (f_service f) as [sv|]; [|destruct (f_dest f) as [[d delay]|]]; [apply (shape_advance s x _ _ (s_forwards s)); auto; cbn; rewrite SX; auto| |apply (shape_drop s _ (s_forwards s)); auto; intros e []].
    apply (shape_advance s x _ _ (s_forwards s)); auto; cbn; rewrite ?SX; cbn; auto.
  - cbn [step]. destruct (consume Deq k s) as [[x s1]|] eqn:E; [|apply shape_same]. apply consume_spec in E as (I & SX & Kx & ->); auto. subst k.
    destruct (find_forward (p_fwd x) _) as [f|] eqn:F; [|apply (shape_drop s _ (s_forwards s)); auto; intros e []]. apply find_forward_some in F as [F1 F2]. cbn in F1. cbn [fst snd].
    apply (shape_drop s); [|intros e []]. apply set_forward_map; auto. exists f. rewrite id_decrement, dyn_decrement. auto.
  - cbn [step]. destruct d; [|apply shape_same]. destruct (consume Deq k s) as [[x s1]|] eqn:E; [|apply shape_same]. apply consume_spec in E as (I & SX & Kx & ->); auto. subst k.
    destruct (find_forward (p_fwd x) _) as [f|] eqn:F; [|apply (shape_drop s _ (s_forwards s)); auto; intros e []]. apply find_forward_some in F as [F1 F2]. cbn in F1.
    apply (shape_next s _ _ f); auto; [now rewrite id_decrement|now rewrite dyn_decrement].
  - cbn [step]. destruct (consume LookS k s) as [[x s1]|] eqn:E; [|apply shape_same]. apply consume_spec in E as (I & SX & Kx & ->); auto. subst k.
    destruct a as [[sv p]|]; (apply (shape_advance s x _ _ (s_forwards s)); auto; cbn; rewrite ?SX; cbn; auto).
  - cbn [step]. destruct (consume Disc k s) as [[x s1]|] eqn:E; [|apply shape_same]. apply consume_spec in E as (I & SX & Kx & ->); auto. subst k. apply (shape_advance s x _ _ (s_forwards s)); auto; cbn; rewrite ?SX; cbn; auto.
  - cbn [step]. destruct (consume Calling k s) as [[x s1]|] eqn:E; [|apply shape_same]. apply consume_spec in E as (I & SX & Kx & ->); auto. subst k.
    destruct (find_forward (p_fwd x) _) as [f|]; [|apply (shape_drop s _ (s_forwards s)); auto; intros e []].
    destruct (negb (code =? 0)); [|destruct (f_dest f) as [[d delay]|]]; (apply (shape_advance s x _ _ (s_forwards s)); auto; cbn; rewrite ?SX; cbn; auto).
  - cbn [step]. destruct (consume Enq k s) as [[x s1]|] eqn:E; [|apply shape_same]. apply consume_spec in E as (I & SX & Kx & ->); auto. subst k.
    destruct ok; [apply (shape_advance s x _ _ (s_forwards s)); auto; cbn; rewrite ?SX; cbn; auto|]. destruct (find_forward (p_fwd x) _) as [f|] eqn:F; [|apply (shape_advance s x _ _ (s_forwards s)); auto; cbn; rewrite ?SX; cbn; auto].
    apply find_forward_some in F as [F1 F2]. cbn in F1. apply (shape_advance s x); auto; cbn; rewrite ?SX; cbn; auto. apply set_forward_map; auto. exists f. auto.
  - cbn [step]. destruct pr; [apply shape_same|]. destruct (consume Com k s) as [[x s1]|] eqn:E; [|apply shape_same]. apply consume_spec in E as (I & SX & Kx & ->); auto. subst k.
    destruct (find_forward (p_fwd x) _) as [f|] eqn:F; [|apply (shape_drop s _ (s_forwards s)); auto; intros e []]. apply find_forward_some in F as [F1 F2]. cbn in F1.
    apply (shape_next s _ _ f); auto; [now rewrite id_decrement|now rewrite dyn_decrement].
  - cbn [step]. destruct (consume Rol k s) as [[x s1]|] eqn:E; [|apply shape_same]. apply consume_spec in E as (I & SX & Kx & ->); auto. subst k.
    destruct (find_forward (p_fwd x) _) as [f|] eqn:F; [|apply (shape_drop s _ (s_forwards s)); auto; intros e []]. apply find_forward_some in F as [F1 F2]. cbn in F1.
    apply (shape_next s _ _ f); auto; [now rewrite id_decrement|now rewrite dyn_decrement].
  - cbn [step fst snd]. split; cbn; auto; [|intros e []]. intros p I. apply filter_In in I as [I _]. auto.
  - cbn [step]. destruct (consume Enq k s) as [[x s1]|] eqn:E; [|apply shape_same]. apply consume_spec in E as (I & SX & Kx & ->); auto. subst k.
    destruct (find_forward (p_fwd x) s) as [f|]; [|apply shape_same]. destruct (f_service f); [|apply shape_same]. apply (shape_advance s x _ _ (s_forwards s)); auto; cbn; rewrite ?SX; cbn; auto.
  - cbn [step]. assert (G : forall l s', (forall f, In f l -> In f (s_forwards s)) -> map dyn (s_forwards s') = map dyn (s_forwards s) -> s_pending s' = s_pending s -> s_run s' = s_run s -> s_next s' = s_next s ->
      Shape s (fst (each (dead_one p) l s')) (snd (each (dead_one p) l s'))).
    { induction l as [|f l IH]; intros s' Sub D Pe Ru Ne; cbn [each].
      - cbn [fst snd]. split; auto; [rewrite Pe; auto|intros e []].
      - assert (X : map dyn (s_forwards (fst (dead_one p f s'))) = map dyn (s_forwards s) /\ s_pending (fst (dead_one p f s')) = s_pending s /\ s_run (fst (dead_one p f s')) = s_run s /\ s_next (fst (dead_one p f s')) = s_next s
          /\ forall e, In e (snd (dead_one p f s')) -> match e with DiscardQueue _ | Forget _ _ | Fake _ => True | _ => False end).
        { unfold dead_one. cbv zeta. destruct (_ || _); [|split; [auto|split; [auto|split; [auto|split; [auto|intros e []]]]]].
          assert (Ids : map f_id (s_forwards s') = map f_id (s_forwards s)) by (apply (f_equal (map (fun y => fst (fst y)))) in D; rewrite !map_map in D; exact D).
          destruct (match f_dest f with Some (d, _) => _ | None => _ end); cbn [fst snd].
          - split; [|split; [auto|split; [auto|split; [auto|]]]].
            + cbn. rewrite <- D. apply set_forward_map; [now rewrite Ids|]. assert (Q : In (dyn f) (map dyn (s_forwards s'))) by (rewrite D; apply in_map, Sub; now left). apply in_map_iff in Q as [y [Q1 Q2]]. exists y. split; auto. split; [unfold dyn in Q1; now injection Q1|exact Q1].
            + intros e I. rewrite !in_app_iff in I. destruct I as [[I|I]|I]; apply in_map_iff in I as [z [<- _]]; exact Logic.I.
          - split; [auto|split; [auto|split; [auto|split; [auto|]]]]. intros e I. rewrite !in_app_iff in I. destruct I as [I|I]; apply in_map_iff in I as [z [<- _]]; exact Logic.I. }
        destruct X as (X1 & X2 & X3 & X4 & X5). destruct (dead_one p f s') as [s1 e1]. cbn [fst snd] in *. specialize (IH s1 (fun g Gi => Sub g (or_intror Gi)) X1 X2 X3 X4). destruct (each (dead_one p) l s1) as [s2 e2]. cbn [fst snd] in *.
        destruct IH as [A B D' E']. split; auto. intros e I. apply in_app_or in I as [I|I]; [|now apply E']. specialize (X5 e I). destruct e; try contradiction; auto. }
    apply G; auto. intros f I; apply in_app_or in I as [I|I]; apply filter_In in I as [I _]; auto.
Qed.
