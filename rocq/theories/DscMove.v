(* The discovery: what an input does to what is waited for. *)
From Coq Require Import ZArith List Bool Lia.
From Verif Require Import DscModel DscSpec DscProofs DscHold DscEnv DscDyn DscOps.
Import ListNotations.
Local Open Scope Z_scope.

Section Move.
Variables (h : history) (i : input) (ev : list effect).
Let H := h ++ [(i, ev)].

Lemma updates_mono d im : updates h d im -> updates H d im.
Proof. intros [A B]. unfold H. split; intros p w I; rewrite inputs_snoc, in_snoc; auto. Qed.
Lemma okacc_mono a : okacc h a -> okacc H a.
Proof.
  intros (A & B & C & D). unfold H. split; [intros r I; destruct (A r I); split; [now apply arrived_mono|auto]|]. split; [|split; [intros n x I; now apply told_here_mono, C|now apply updates_mono]].
  intros r I. destruct (B r I) as (B1 & B2 & B3 & B4). split; [now apply arrived_mono|]. split; [auto|]. split; [auto|]. intros n N. now apply not_here_mono, B4.
Qed.
Lemma told_mono c : told h c -> told H c.
Proof. intros T n x I. destruct (T n x I); [left; now apply told_here_mono|right; now apply told_there_mono]. Qed.
Lemma said_mono c : said h c -> said H c.
Proof. intros T n x I. destruct (T n x I) as (k & l & A & B). exists k, l. unfold H. rewrite inputs_snoc, in_snoc. auto. Qed.
Lemma snoc_split (h1 h2 : history) x : h = h1 ++ x :: h2 -> H = h1 ++ x :: (h2 ++ [(i, ev)]).
Proof. intros E. unfold H. rewrite E, <- app_assoc. reflexivity. Qed.

Lemma dpt_move r n ws ws' :
  (forall k p, In (k, p, false) ws -> (In (k, p, false) ws' /\ forall w, ends i (Ask p k w) = false) \/ ((forall w, ends i (Ask p k w) = true) /\ ~ hears (configured h) i n)) -> dpt h r n ws -> dpt H r n ws'.
Proof.
  intros M (h1 & i1 & ev1 & h2 & E & A & P). exists h1, i1, ev1, (h2 ++ [(i, ev)]). split; [now apply snoc_split|]. split; [auto|]. intros p P1 P2. destruct (P p P1 P2) as (k & w & o & K1 & K2 & K3 & K4). exists k, w, o. split; [auto|]. split; [auto|]. split; [auto|].
  destruct K4 as [[K4 K5]|K4]; [|right; now apply refused_since]. destruct (M k p K4) as [[M1 M2]|[M1 M2]]; [left; split; [auto|now apply open_since]|right; now apply refused_now].
Qed.
Lemma rpt_move p k ws ws' have have' : (forall n, In n (map fst have) -> In n (map fst have')) ->
  (forall k p, In (k, p, false) ws -> (In (k, p, false) ws' /\ forall w, ends i (Ask p k w) = false) \/ ((forall w, ends i (Ask p k w) = true) /\ forall n, ~ In n (map fst have') -> ~ says_name (configured h) i n)) -> rpt h p k ws have -> rpt H p k ws' have'.
Proof.
  intros S M (h1 & i1 & ev1 & h2 & l & w & E & F & A & P). exists h1, i1, ev1, (h2 ++ [(i, ev)]), l, w. split; [now apply snoc_split|]. split; [auto|]. split; [auto|]. intros q P1 P2. destruct (P q P1 P2) as (k' & K1 & K2). exists k'. split; [auto|]. intros n N.
  destruct (K2 n) as [[K4 K5]|K4]; [auto| |right; now apply refused_since]. destruct (M k' q K4) as [[M1 M2]|[M1 M2]]; [left; split; [auto|now apply open_since]|right; apply refused_now; auto].
Qed.
Definition moves (tells : config -> input -> name -> Prop) (have' : content) (ws ws' : list (Z * proc * bool)) : Prop :=
  (forall k p, In (k, p, false) ws' -> In (k, p, false) ws /\ forall w, ends i (Ask p k w) = false) /\
  (forall k p, In (k, p, false) ws -> (In (k, p, false) ws' /\ forall w, ends i (Ask p k w) = false) \/ ((forall w, ends i (Ask p k w) = true) /\ forall n, ~ In n (map fst have') -> ~ tells (configured h) i n)).
Lemma okreq_move have have' ws ws' r : (forall n, In n (map fst have) -> In n (map fst have')) -> moves hears have' ws ws' -> okreq h have ws r -> okreq H have' ws' r.
Proof.
  intros S [_ M] (A & F & N). split; [now apply arrived_mono|]. split; [auto|]. intros n I J. destruct (N n I) as [X Y]; [auto|]. split; [intro Z; now apply not_here_mono, X|]. apply (dpt_move r n ws); auto. intros k p K. destruct (M k p K) as [?|[M1 M2]]; auto.
Qed.
Lemma okd_move d d' : okd h d -> d_asked d' = d_asked d -> (forall n, In n (map fst (d_have d)) -> In n (map fst (d_have d'))) ->
  match d_job d with
  | JAnswer l => exists l', d_job d' = JAnswer l' /\ incl l' l /\ told H (d_have d') /\ moves hears (d_have d') (d_wait d) (d_wait d')
  | JRedisc p k => d_job d' = JRedisc p k /\ said H (d_have d') /\ moves says_name (d_have d') (d_wait d) (d_wait d')
  end -> okd H d'.
Proof.
  intros (O & W & J) EA S M. unfold okjob in J. split; [|split; [rewrite EA; intros o I; now apply wanted_as_mono, W|]].
  - intros k p I. assert (X : In (k, p, false) (d_wait d) /\ forall w, ends i (Ask p k w) = false). { destruct (d_job d); [destruct M as (l' & _ & _ & _ & M & _)|destruct M as (_ & _ & M & _)]; auto. } destruct X as [X1 X2]. destruct (O k p X1) as (w & Ow). exists w. now apply open_since.
  - unfold okjob. destruct (d_job d) as [l|p k].
    + destruct M as (l' & -> & IL & T & M). destruct J as [_ R]. split; [auto|]. intros r I. apply (okreq_move (d_have d) _ (d_wait d)); auto.
    + destruct M as (-> & T & M). destruct J as [_ R]. split; [auto|]. destruct M as [_ M]. apply (rpt_move p k (d_wait d) _ (d_have d)); auto.
Qed.
(* nothing that is waited for ends *)
Lemma okd_stay d : okd h d -> (forall k p w, In (k, p, false) (d_wait d) -> ends i (Ask p k w) = false) -> okd H d.
Proof.
  intros O E. apply (okd_move d); auto. destruct O as (_ & _ & J). unfold okjob in J. destruct (d_job d) as [l|p k]; destruct J as [T _].
  - exists l. split; [auto|]. split; [intros r; auto|]. split; [now apply told_mono|]. split; [intros k p I|intros k p I; left]; split; auto.
  - split; [auto|]. split; [now apply said_mono|]. split; [intros k' q I|intros k' q I; left]; split; auto.
Qed.
(* the lookups and what is known *)
Lemma okl_move l l' : okl h l -> l_req l' = l_req l -> (forall n, In n (map fst (l_have l)) -> In n (map fst (l_have l'))) -> (forall n x, In (n, x) (l_have l') -> told_here n x H) ->
  (forall k p, In (k, p) (l_wait l') -> In (k, p) (l_wait l) /\ forall b w, ends i (AskLook p k b w) = false) ->
  (forall k p, In (k, p) (l_wait l) -> In (k, p) (l_wait l') \/ ((forall b w, ends i (AskLook p k b w) = true) /\ forall n, ~ In n (map fst (l_have l')) -> ~ says_name (configured h) i n)) -> okl H l'.
Proof.
  intros (O & A & P & T) R S T' M1 M2. split; [|split; [congruence|split; [|auto]]]; rewrite R.
  - intros k p I. destruct (M1 k p I). apply open_since; auto.
  - destruct P as (h1 & ev1 & h2 & E & P). exists h1, ev1, (h2 ++ [(i, ev)]). split; [now apply snoc_split|]. intros p P1 P2. destruct (P p P1 P2) as (k & K1 & K2). exists k. split; [auto|]. intros n N. destruct (K2 n) as [K|K]; [auto| |right; now apply refused_since].
    destruct (M2 k p K) as [?|[M3 M4]]; [auto|]. right. apply refused_now; auto.
Qed.
Lemma okl_stay l : okl h l -> (forall k p b w, In (k, p) (l_wait l) -> ends i (AskLook p k b w) = false) -> okl H l.
Proof. intros O E. apply (okl_move l); auto. - destruct O as (_ & _ & _ & T). intros n x I. now apply told_here_mono, T. Qed.
Lemma kpt_move i0 ws ws' have have' : (forall k p, In (k, p) ws -> open (AskKnown p k) h) -> (forall n, In n have -> In n have') -> (forall k p, In (k, p) ws -> In (k, p) ws' \/ (ends i (AskKnown p k) = true /\ forall n, ~ In n have' -> ~ says_name (configured h) i n)) -> kpt h i0 ws have -> kpt H i0 ws' have'.
Proof.
  intros O S M (h1 & ev1 & h2 & E & P). exists h1, ev1, (h2 ++ [(i, ev)]). split; [now apply snoc_split|]. intros p P1 P2. destruct (P p P1 P2) as (k & K1 & K2). exists k. split; [auto|]. intros n N. destruct (K2 n) as [K|K]; [auto| |right; now apply refused_since].
  destruct (M k p K) as [?|[M3 M4]]; [auto|]. right. apply refused_now; auto.
Qed.
Lemma okk_move x x' : okk h x -> k_goal x' = k_goal x -> (forall n, In n (k_have x) -> In n (k_have x')) -> (forall n, In n (k_have x') -> exists k w, In (KnownReply k w) (inputs H) /\ In n w) ->
  (forall k p, In (k, p) (k_wait x') -> In (k, p) (k_wait x) /\ ends i (AskKnown p k) = false) ->
  (forall k p, In (k, p) (k_wait x) -> In (k, p) (k_wait x') \/ (ends i (AskKnown p k) = true /\ forall n, ~ In n (k_have x') -> ~ says_name (configured h) i n)) -> okk H x'.
Proof.
  intros (O & T & G) R S T' M1 M2. split; [intros k p I; destruct (M1 k p I); apply open_since; auto|]. split; [auto|]. unfold okgoal in *. rewrite R. destruct (k_goal x) as [p k|d im].
  - apply (kpt_move _ (k_wait x) _ (k_have x)); auto.
  - destruct G as [U G]. split; [now apply updates_mono|]. apply (kpt_move _ (k_wait x) _ (k_have x)); auto.
Qed.
Lemma okk_stay x : okk h x -> (forall k p, In (k, p) (k_wait x) -> ends i (AskKnown p k) = false) -> okk H x.
Proof. intros O E. apply (okk_move x); auto. destruct O as (_ & T & _). intros n I. destruct (T n I) as (k & w & A & B). exists k, w. unfold H. rewrite inputs_snoc, in_snoc. auto. Qed.
Lemma dyn_stay s : dyn h s -> (forall e, asked_of e <> None -> ends i e = false) -> dyn H s.
Proof.
  intros [D L K A N1 N2 N3 F] E. split; auto.
  - intros d I. destruct (D d I). split; [auto|]. apply okd_stay; auto. intros. apply E. discriminate.
  - intros d I. destruct (L d I). split; [auto|]. apply okl_stay; auto. intros. apply E. discriminate.
  - intros d I. destruct (K d I). split; [auto|]. apply okk_stay; auto. intros. apply E. discriminate.
  - now apply okacc_mono.
Qed.

(* a reply to a discovery *)
Lemma disc_entry_ok k c d : i = DiscReply k c -> okd h d ->
  let '(o, l) := disc_entry k c (configured h) d in Forall (fine h i H) l /\ match o with Some d' => all_failed (d_wait d') = false /\ okd H d' /\ d_wait d' = filter (fun x => negb (fst (fst x) =? k)) (d_wait d) | None => True end.
Proof.
  intros I O. unfold disc_entry. set (ws := filter _ (d_wait d)). destruct (O) as (_ & _ & J). unfold okjob in J.
  assert (M : forall tells have', (forall n, ~ In n (map fst have') -> ~ tells (configured h) i n) -> moves tells have' (d_wait d) ws).
  { intros tells have' T. split.
    - intros k' p X. apply filter_In in X as [X Y]. split; [auto|]. intro w. rewrite I. cbn in *. apply negb_true_iff in Y. rewrite Z.eqb_sym. auto.
    - intros k' p X. destruct (k' =? k) eqn:K.
      + right. split; [|auto]. intro w. rewrite I. cbn. rewrite Z.eqb_sym. auto.
      + left. split; [apply filter_In; cbn; rewrite K; auto|]. intro w. rewrite I. cbn. rewrite Z.eqb_sym. auto. }
  destruct (d_job d) as [l|p q] eqn:Ej.
  - destruct J as [T R]. set (have := plus (d_have d) (back (configured h) c)). cbv zeta.
    assert (Sub : forall n, In n (map fst (d_have d)) -> In n (map fst have)) by (intros n X; apply plus_names; auto).
    assert (T' : told H have). { intros n x X. apply plus_in in X as [X|X]; [exact (told_mono _ T n x X)|]. right. apply back_in in X as (o & X1 & X2). exists h, k, c, ev, [], o. unfold H. rewrite I. auto. }
    assert (Mh : moves hears have (d_wait d) ws). { apply M. intros n N X. apply N. rewrite I in X. cbn in X. apply plus_names. right. now apply back_names. }
    assert (R' : forall r, In r l -> okreq H have ws r) by (intros r X; apply (okreq_move (d_have d) have (d_wait d)); auto).
    assert (F : Forall (fine h i H) (map (answer have) (filter (fun r => includes (r_want r) have) l))).
    { apply Forall_forall. intros e X. apply in_map_iff in X as (r & <- & X). apply filter_In in X as [X Y]. destruct (R' r X) as (A & B & _). apply (answer_ok h i ev); auto. intros n N1 N2. rewrite includes_iff in Y. destruct (N2 (Y n N1)). }
    destruct (filter (fun r => negb (includes (r_want r) have)) l) as [|r0 rest] eqn:Er; [auto|]. set (d' := Disc ws have (d_asked d) (JAnswer (r0 :: rest))).
    assert (O' : okd H d'). { apply (okd_move d); auto. rewrite Ej. exists (r0 :: rest). split; [auto|]. split; [|auto]. intros r X. rewrite <- Er in X. now apply filter_In in X. }
    destruct (all_failed ws) eqn:W.
    + split; [|auto]. apply Forall_app. split; [auto|]. now apply (finish_ok h i ev).
    + split; [auto|]. auto.
  - destruct J as [T R]. cbv zeta. set (d' := Disc ws (plus (d_have d) c) (d_asked d) (JRedisc p q)).
    assert (O' : okd H d').
    { apply (okd_move d); auto. - intros n X. apply plus_names. auto. - rewrite Ej. split; [auto|]. split.
      + intros n x X. apply plus_in in X as [X|X]; [exact (said_mono _ T n x X)|]. exists k, c. unfold H. rewrite inputs_snoc, in_snoc, I. auto.
      + apply M. intros n N X. apply N. rewrite I in X. cbn in X. apply plus_names. auto. }
    destruct (all_failed ws) eqn:W; [|auto]. split; [|auto]. now apply (finish_ok h i ev).
Qed.
Lemma waits_disc_in k d : waits_disc k d = true <-> In k (map (fun x => fst (fst x)) (d_wait d)).
Proof. unfold waits_disc. rewrite existsb_exists, in_map_iff. split; intros (x & A & B). - exists x. apply Z.eqb_eq in B. auto. - exists x. split; [auto|]. now apply Z.eqb_eq. Qed.
Lemma stay_disc k c d : i = DiscReply k c -> ~ In k (map (fun x => fst (fst x)) (d_wait d)) -> okd h d -> okd H d.
Proof. intros I N O. apply okd_stay; auto. intros k' p w X. rewrite I. cbn. apply Z.eqb_neq. intros ->. apply N. apply in_map_iff. exists (k', p, false). auto. Qed.
Lemma nodup_parts {A} (a b : list A) : NoDup (a ++ b) -> NoDup a /\ NoDup b /\ forall x, In x a -> ~ In x b.
Proof.
  induction a as [|x a IH]; cbn; intro N; [split; [constructor|auto]|]. inversion N as [|? ? X Y]; subst. destruct (IH Y) as (A1 & B1 & C1). split; [constructor; auto; intro Z; apply X, in_app_iff; auto|]. split; [auto|]. intros y [<-|Z] W; [apply X, in_app_iff; auto|now apply (C1 y)].
Qed.
Lemma in_filter_key (f : Z * proc * bool -> bool) ws x : In x (map (fun x => fst (fst x)) (filter f ws)) -> In x (map (fun x => fst (fst x)) ws).
Proof. rewrite !in_map_iff. intros (y & E & I). apply filter_In in I as [I _]. eauto. Qed.
Lemma nodup_filter_map {A B} (g : A -> B) f (l : list A) : NoDup (map g l) -> NoDup (map g (filter f l)).
Proof.
  induction l as [|x l IH]; cbn; intro N; [auto|]. inversion N as [|? ? X Y]; subst. destruct (f x); cbn; auto. constructor; auto. intro I. apply X. apply in_map_iff in I as (y & E & I). apply filter_In in I as [I _]. apply in_map_iff. eauto.
Qed.
Lemma disc_reply_ok k c l : i = DiscReply k c -> (forall d, In d l -> all_failed (d_wait d) = false /\ okd h d) -> NoDup (dkeys l) ->
  let '(l', evs) := disc_reply k c (configured h) l in
  (forall d, In d l' -> all_failed (d_wait d) = false /\ okd H d) /\ NoDup (dkeys l') /\ (forall x, In x (dkeys l') -> In x (dkeys l)) /\ Forall (fine h i H) evs.
Proof.
  intros I. induction l as [|d l IH]; intros G N; cbn [disc_reply]; [split; [intros d []|]; split; [constructor|split; [auto|constructor]]|].
  change (dkeys (d :: l)) with (map (fun x => fst (fst x)) (d_wait d) ++ dkeys l) in *. destruct (nodup_parts _ _ N) as (N1 & N2 & N3). destruct (G d (or_introl eq_refl)) as [W O]. destruct (waits_disc k d) eqn:Wk.
  - apply waits_disc_in in Wk. pose proof (disc_entry_ok k c d I O) as E. destruct (disc_entry k c (configured h) d) as [o evs]. destruct E as [F E].
    assert (Gl : forall d', In d' l -> all_failed (d_wait d') = false /\ okd H d'). { intros d' X. destruct (G d' (or_intror X)) as [W' O']. split; [auto|]. apply (stay_disc k c); auto. intro Y. apply (N3 k Wk). apply in_flat_map. eauto. }
    destruct o as [d'|].
    + destruct E as (E1 & E2 & E3). change (dkeys (d' :: l)) with (map (fun x => fst (fst x)) (d_wait d') ++ dkeys l). rewrite E3. split; [intros x [<-|X]; auto|]. split; [|split; [|auto]].
      * apply nodup_app; auto; [now apply nodup_filter_map|]. intros x X. apply N3. now apply in_filter_key in X.
      * intros x X. apply in_app_iff. apply in_app_iff in X as [X|X]; [left; now apply in_filter_key in X|auto].
    + split; [auto|]. split; [auto|]. split; [|auto]. intros x X. apply in_app_iff. auto.
  - assert (G' : forall d, In d l -> all_failed (d_wait d) = false /\ okd h d) by (intros d' X; apply G; cbn; auto). specialize (IH G' N2). destruct (disc_reply k c (configured h) l) as [l' evs]. destruct IH as (I1 & I2 & I3 & I4). change (dkeys (d :: l')) with (map (fun x => fst (fst x)) (d_wait d) ++ dkeys l').
    split; [intros x [<-|X]; [split; [auto|]|auto]; apply (stay_disc k c); auto; intro Y; apply waits_disc_in in Y; congruence|]. split; [apply nodup_app; auto; intros x X Y; apply (N3 x X); auto|]. split; [|auto]. intros x X. apply in_app_iff. apply in_app_iff in X as [X|X]; auto.
Qed.
(* processes fail *)
Lemma fail_disc_ok f d : (forall e p k w, e = Ask p k w -> ends i e = f p) -> (forall c n, ~ hears c i n) -> (forall c n, ~ says_name c i n) -> okd h d -> okd H (fail_disc f d).
Proof.
  intros E T1 T2 O. apply (okd_move d); auto.
  assert (M : forall tells : config -> input -> name -> Prop, (forall c n, ~ tells c i n) -> moves tells (d_have d) (d_wait d) (d_wait (fail_disc f d))).
  { intros tells T. cbn [fail_disc d_wait]. split.
    - intros k p X. apply in_map_iff in X as ([[k' p'] b] & X & Y). cbn in X. injection X as -> -> X. apply orb_false_iff in X as [-> X]. split; [auto|]. intro w. rewrite (E _ p k w); auto.
    - intros k p X. destruct (f p) eqn:Fp.
      + right. split; [intro w; rewrite (E _ p k w); auto|auto].
      + left. split; [|intro w; rewrite (E _ p k w); auto]. apply in_map_iff. exists (k, p, false). cbn. rewrite Fp. auto. }
  destruct O as (_ & _ & J). unfold okjob in J. destruct (d_job d) as [l|p k] eqn:Ej; destruct J as [T _]; cbn [fail_disc d_job d_have].
  - exists l. split; [auto|]. split; [intros r; auto|]. split; [now apply told_mono|now apply M].
  - split; [auto|]. split; [now apply said_mono|now apply M].
Qed.
Lemma dkeys_fail f l : dkeys (map (fail_disc f) l) = dkeys l.
Proof. unfold dkeys. induction l as [|d l IH]; cbn; [auto|]. rewrite IH, map_map. reflexivity. Qed.
Lemma dkeys_filter g l x : In x (dkeys (filter g l)) -> In x (dkeys l).
Proof. unfold dkeys. rewrite !in_flat_map. intros (d & I & J). apply filter_In in I as [I _]. eauto. Qed.
Lemma nodup_flat_filter {A} (k : A -> list Z) g l : NoDup (flat_map k l) -> NoDup (flat_map k (filter g l)).
Proof.
  induction l as [|d l IH]; cbn; intro N; [auto|]. destruct (nodup_parts _ _ N) as (N1 & N2 & N3). destruct (g d); cbn; auto. apply nodup_app; auto. intros x X Y. apply (N3 x X). apply in_flat_map in Y as (d' & Y & Z). apply filter_In in Y as [Y _]. apply in_flat_map. eauto.
Qed.
Lemma disc_failed_ok f l : (forall e p k w, e = Ask p k w -> ends i e = f p) -> (forall c n, ~ hears c i n) -> (forall c n, ~ says_name c i n) -> (forall d, In d l -> okd h d) -> NoDup (dkeys l) ->
  let '(l', evs) := disc_failed f l in
  (forall d, In d l' -> all_failed (d_wait d) = false /\ okd H d) /\ NoDup (dkeys l') /\ (forall x, In x (dkeys l') -> In x (dkeys l)) /\ Forall (fine h i H) evs.
Proof.
  intros E T1 T2 G N. unfold disc_failed. cbv zeta. split; [|split; [|split]].
  - intros d I. apply filter_In in I as [I W]. apply negb_true_iff in W. split; [auto|]. apply in_map_iff in I as (d' & <- & I). apply fail_disc_ok; auto.
  - rewrite <- (dkeys_fail f) in N. now apply (nodup_flat_filter (fun d => map (fun x => fst (fst x)) (d_wait d))).
  - intros x X. apply dkeys_filter in X. now rewrite dkeys_fail in X.
  - apply Forall_forall. intros e I. apply in_flat_map in I as (d & I & J). apply in_map_iff in I as (d' & <- & I). destruct (all_failed (d_wait (fail_disc f d'))) eqn:W; [|destruct J]. pose proof (finish_ok h i ev (fail_disc f d')) as F. rewrite Forall_forall in F. apply F; auto. apply fail_disc_ok; auto.
Qed.
End Move.

(* the first that is found *)
Lemma find_first {A} (f : A -> bool) (g : A -> A) l x : find f l = Some x -> exists a b, l = a ++ x :: b /\ remove_first f l = a ++ b /\ on_first f g l = a ++ g x :: b /\ f x = true.
Proof.
  induction l as [|y l IH]; cbn; [discriminate|]. destruct (f y) eqn:F; intro E.
  - injection E as ->. exists [], l. auto.
  - destruct (IH E) as (a & b & -> & -> & -> & X). exists (y :: a), b. auto.
Qed.
Lemma waits_in k ws : waits k ws = true <-> In k (map fst ws).
Proof. unfold waits. rewrite existsb_exists, in_map_iff. split; intros (x & A & B). - exists x. apply Z.eqb_eq in B. auto. - exists x. split; [auto|]. now apply Z.eqb_eq. Qed.
Lemma waits_not k ws : waits k ws = false <-> ~ In k (map fst ws).
Proof. rewrite <- waits_in. destruct (waits k ws); split; congruence. Qed.
Lemma drop_in k ws k' p : In (k', p) (drop_wait k ws) <-> In (k', p) ws /\ k' <> k.
Proof. unfold drop_wait. rewrite filter_In. cbn. rewrite negb_true_iff, Z.eqb_neq. tauto. Qed.
Lemma drop_keys k ws x : In x (map fst (drop_wait k ws)) -> In x (map fst ws).
Proof. rewrite !in_map_iff. intros (y & E & I). apply filter_In in I as [I _]. eauto. Qed.
Lemma fails_in f ws k p : In (k, p) (DscModel.fails f ws) <-> In (k, p) ws /\ f p = false.
Proof. unfold DscModel.fails. rewrite filter_In. cbn. rewrite negb_true_iff. tauto. Qed.
