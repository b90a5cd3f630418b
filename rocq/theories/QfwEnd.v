(* The claims: stories, counts, shutdown. *)
From Coq Require Import ZArith List Bool Lia Permutation.
From Verif Require Import QfwModel QfwSpec QfwProofs QfwInv QfwFlow QfwCount QfwShape QfwStop.
Import ListNotations.
Local Open Scope Z_scope.

Lemma reach_snoc s h i ev : reach s (h ++ [(i, ev)]) -> exists s0, reach s0 h /\ possible i /\ s = fst (step i s0) /\ ev = snd (step i s0).
Proof.
  intro R. inversion R as [E0 E|s0 h0 i0 R0 P Q E]; [symmetry in E; now apply app_eq_nil in E as [_ E]|]. apply app_inj_tail in E as [-> E]. injection E as -> <-. exists s0. auto.
Qed.
(* ---- stories ---- *)
Lemma flows_story s h k : reach s h -> story_of k h = [] \/ exists c f, configured c h /\ conf_ok c /\ story c f k (k + 1) (story_of k h).
Proof. intro R. destruct (i_story _ _ _ (reach_inv s h R) k) as [E|(c & f & [C Ok] & _ & S)]; [auto|right; exists c, f; auto]. Qed.
Lemma effect_story k e h : In e (effects h) -> about k e = true -> exists i, In (i, e) (story_of k h).
Proof.
  intros I A. unfold effects in I. apply in_flat_map in I as [[i ev] [J I]]. exists i. unfold story_of. apply in_flat_map. exists (i, ev). split; auto. cbn. apply in_map. apply filter_In. auto.
Qed.
Lemma story_effect k i e h : In (i, e) (story_of k h) -> about k e = true /\ In e (effects h) /\ In i (inputs h).
Proof.
  unfold story_of. intro I. apply in_flat_map in I as [[j ev] [J I]]. cbn in I. apply in_map_iff in I as [e' [E I]]. injection E as -> <-. apply filter_In in I as [I A].
  split; [auto|split]; [unfold effects; apply in_flat_map; exists (i, ev); auto|unfold inputs; apply in_map_iff; exists (i, ev); auto].
Qed.
Lemma story_settles c f k t l : story c f k t l -> (count (fun x => settles (snd x)) l <= 1)%nat /\ (count (fun x => settles (snd x)) l = 1%nat -> exists x, last_of l = Some x /\ settles (snd x) = true).
Proof.
  intro S. induction S as [|l i e S [A B] F]; [split; [cbn; lia|cbn; lia]|]. unfold count in *. rewrite filter_app, app_length, last_of_snoc. cbn [filter snd].
  assert (N : forall x, last_of l = Some x -> settles (snd x) = false).
  { intros [j b] L. rewrite L in F. destruct b; auto; cbn in F; destruct e; contradiction. }
  assert (Z : length (filter (fun x => settles (snd x)) l) = 0%nat). { destruct (length (filter (fun x => settles (snd x)) l)) as [|[|n]] eqn:E; auto; [|lia]. destruct (B eq_refl) as (x & X & Y). rewrite (N x X) in Y. discriminate. }
  rewrite Z. destruct (settles e) eqn:E; cbn [length]; split; try lia. intros _. exists (i, e). auto.
Qed.
Lemma settled_once s h k : reach s h -> (count settles (filter (about k) (effects h)) <= 1)%nat.
Proof.
  intro R. assert (E : filter (about k) (effects h) = map snd (story_of k h)).
  { unfold effects, story_of. clear R. induction h as [|[i ev] h IH]; cbn [flat_map]; auto. rewrite filter_app, map_app, IH. f_equal. cbn. rewrite map_map. cbn. symmetry. apply map_id. }
  rewrite E. assert (Q : count settles (map snd (story_of k h)) = count (fun x => settles (snd x)) (story_of k h)).
  { unfold count. clear. induction (story_of k h) as [|x l IH]; cbn; auto. destruct (settles (snd x)); cbn; auto. }
  rewrite Q. destruct (flows_story s h k R) as [->|(c & f & _ & _ & S)]; [cbn; lia|]. now apply (story_settles c f k (k + 1)).
Qed.
Lemma story_head c f k t l : story c f k t l -> forall x, In x l -> match snd x with Dequeue f' _ k' t' _ name => f' = f /\ k' = k /\ t' = t /\ name = g_source c | Call _ _ t' _ _ | Enqueue _ _ t' _ _ _ _ | Commit _ t' | Rollback _ t' => t' = t | _ => True end.
Proof.
  intro S. induction S as [|l i e S IH F]; [intros x []|]. intros x I. apply in_app_or in I as [I|[<-|[]]]; [exact (IH x I)|]. cbn [snd]. unfold follows in F. destruct (last_of l) as [[j b]|]; [destruct b|]; destruct e; try contradiction; cbn in F |- *; intuition.
Qed.
Lemma own_transaction s h f p k t q name f' p' k' q' name' : reach s h -> In (Dequeue f p k t q name) (effects h) -> In (Dequeue f' p' k' t q' name') (effects h) -> k = k'.
Proof.
  intros R A B. destruct (effect_story k _ h A (Z.eqb_refl k)) as [i I]. destruct (effect_story k' _ h B (Z.eqb_refl k')) as [i' I'].
  destruct (flows_story s h k R) as [E|(c & g & _ & _ & S)]; [rewrite E in I; destruct I|]. destruct (flows_story s h k' R) as [E|(c' & g' & _ & _ & S')]; [rewrite E in I'; destruct I'|].
  apply (story_head _ _ _ _ _ S) in I. apply (story_head _ _ _ _ _ S') in I'. cbn in I, I'. lia.
Qed.
(* what has been done when a flow commits *)
Definition so_far (c : conf) (f k t : Z) (l : list (input * effect)) : Prop :=
  match last_of l with
  | None => l = []
  | Some (i, e) => match e with
    | Dequeue _ _ _ _ _ _ => exists p q, l = [(i, Dequeue f p k t q (g_source c))]
    | AskService _ _ => exists i0 p q sv m, l = [(i0, Dequeue f p k t q (g_source c)); (Dequeued k (Some m), AskService k sv)] /\ g_service c = Some sv
    | Call _ _ _ _ _ => exists i0 p q sv m p' sv', l = [(i0, Dequeue f p k t q (g_source c)); (Dequeued k (Some m), AskService k sv); (ServiceFound k (Some (sv', p')), Call p' k t sv' m)] /\ g_service c = Some sv
    | Enqueue _ _ _ _ _ _ _ =>
        (exists i0 p q sv m p' sv' r p2 q2 name delay, l = [(i0, Dequeue f p k t q (g_source c)); (Dequeued k (Some m), AskService k sv); (ServiceFound k (Some (sv', p')), Call p' k t sv' m); (CallReply k 0 r, Enqueue p2 k t q2 name r delay)]
          /\ g_service c = Some sv /\ g_dest c = Some (name, delay))
        \/ (exists i0 p q m p2 q2 name delay, l = [(i0, Dequeue f p k t q (g_source c)); (Dequeued k (Some m), Enqueue p2 k t q2 name m delay)] /\ g_service c = None /\ g_dest c = Some (name, delay))
    | Commit _ _ => complete c f k t l
    | Rollback _ _ => True
    | _ => False end
  end.
Lemma story_so_far c f k t l : story c f k t l -> so_far c f k t l.
Proof.
  intro S. induction S as [|l i e S IH F]; [reflexivity|]. unfold so_far in *. rewrite last_of_snoc. destruct (last_of l) as [[j b]|] eqn:L.
  - destruct b; cbn in F; destruct e; try contradiction.
    + destruct IH as (p0 & q0 & ->). destruct F as (-> & Fs & m & ->). exists j, p0, q0, service, m. auto.
    + destruct IH as (p1 & q1 & ->). destruct F as (-> & -> & Fs & Fd & ->). right. exists j, p1, q1, data, p0, q0, name0, delay. auto.
    + exact Logic.I.
    + destruct IH as (i0 & p0 & q0 & sv & m & -> & G). destruct F as (-> & -> & E & ->). cbn in L. injection L as <- <- <-. injection E as ->. exists i0, p0, q0, sv, data, p, service0. auto.
    + exact Logic.I.
    + destruct IH as (i0 & p1 & q1 & sv & m & p' & sv' & -> & G). destruct F as (-> & -> & Fd & ->). left. exists i0, p1, q1, sv, m, p', sv', data0, p0, q, name, delay. auto.
    + destruct IH as (i0 & p1 & q1 & sv & m & p' & sv' & -> & G). destruct F as (-> & -> & Fd & r & ->). unfold complete. rewrite G, Fd. exists i0, p1, q1, p', m, sv'. cbn. split; [auto|split; [auto|split; [auto|]]]. exists r. auto.
    + exact Logic.I.
    + destruct F as (-> & -> & ->). destruct IH as [(i0 & p1 & q1 & sv & m & p' & sv' & r & p2 & q2 & n2 & d2 & -> & G & Gd)|(i0 & p1 & q1 & m & p2 & q2 & n2 & d2 & -> & G & Gd)]; unfold complete; rewrite G.
      * exists i0, p1, q1, p', m, sv'. cbn. split; [auto|split; [auto|split; [auto|]]]. exists r. rewrite Gd. exists p2, q2. split; auto 7.
      * exists i0, p1, q1, p2, q2, m, n2, d2. cbn. auto 7.
    + exact Logic.I.
  - rewrite IH. cbn in F. destruct e; try contradiction. destruct F as (-> & -> & -> & -> & _). exists p, q. reflexivity.
Qed.
Lemma commit_complete s h k t : reach s h -> In (Commit k t) (effects h) -> exists c f, configured c h /\ complete c f k t (story_of k h).
Proof.
  intros R I. destruct (effect_story k _ h I (Z.eqb_refl k)) as [i J]. destruct (flows_story s h k R) as [E|(c & f & Cc & _ & S)]; [rewrite E in J; destruct J|]. exists c, f. split; auto.
  pose proof (story_head _ _ _ _ _ S _ J) as T. cbn in T. subst t. pose proof (story_so_far _ _ _ _ _ S) as F. unfold so_far in F.
  destruct (story_settles _ _ _ _ _ S) as [_ X]. destruct X as ([j e] & L & Se).
  { pose proof (proj1 (story_settles _ _ _ _ _ S)). assert (count (fun x => settles (snd x)) (story_of k h) <> 0%nat); [|lia]. unfold count. intro Z. apply length_zero_iff_nil in Z. assert (Q : In (i, Commit k (k + 1)) (filter (fun x => settles (snd x)) (story_of k h))) by (apply filter_In; auto). rewrite Z in Q. destruct Q. }
  rewrite L in F. destruct e; try discriminate; auto. exfalso. pose proof (proj1 (story_settles _ _ _ _ _ S)) as X. apply last_of_some in L as [l' E]. rewrite E in J, X. apply in_app_or in J as [J|[J|[]]]; [|discriminate].
  unfold count in X. rewrite filter_app, app_length in X. cbn in X. assert (Q : In (i, Commit k (k + 1)) (filter (fun x => settles (snd x)) l')) by (apply filter_In; auto). destruct (filter (fun x => settles (snd x)) l'); [destruct Q|cbn in X; lia].
Qed.
(* ---- active ---- *)
Lemma started_story s h f k : reach s h -> started f k h -> story_of k h <> [].
Proof. intros R (p & t & q & n & I) E. destruct (effect_story k _ h I (Z.eqb_refl k)) as [i J]. rewrite E in J. destruct J. Qed.
Lemma active_pending s h f k : reach s h -> active f k h <-> exists p, In p (s_pending s) /\ p_corr p = k /\ p_fwd p = f /\ p_stage p <> LookQ.
Proof.
  intro R. split.
  - intros [St No]. pose proof (started_story s h f k R St) as NE. destruct (proj2 (reach_present s h R k) (conj NE No)) as (p & I & K & N). exists p. split; [auto|split; [auto|split; [|auto]]].
    destruct (flow_facts _ _ _ p (reach_inv s h R) I N) as (c & x & _ & _ & S & _). rewrite K in S. destruct St as (p0 & t & q & n & J). destruct (effect_story k _ h J (Z.eqb_refl k)) as [i I']. apply (story_head _ _ _ _ _ S) in I'. cbn in I'. destruct I' as [-> _]. reflexivity.
  - intros (p & I & K & <- & N). destruct (proj1 (reach_present s h R k)) as [NE No]; [exists p; auto|]. split; auto.
    destruct (flow_facts _ _ _ p (reach_inv s h R) I N) as (c & x & _ & _ & S & L & _). rewrite K in S, L. assert (exists i p0 q0, In (i, Dequeue (p_fwd p) p0 k (k + 1) q0 (g_source c)) (story_of k h)) as (i & p0 & q0 & Q).
    { clear - S NE. induction S as [|l i e S IH F]; [congruence|]. destruct (last_of l) as [y|] eqn:L.
      - destruct IH as (i0 & p0 & q0 & Q). { intro Z. rewrite Z in L. discriminate. } exists i0, p0, q0. apply in_or_app; auto.
      - cbn in F. destruct e; try contradiction. destruct F as (-> & -> & -> & -> & _). exists i, p0, q. apply in_or_app. right. now left. }
    destruct (story_effect _ _ _ _ Q) as (_ & Q2 & _). exists p0, (k + 1), q0, (g_source c). exact Q2.
Qed.
Lemma in_flow_corrs id l k : In k (map p_corr (filter (flow_of id) l)) <-> exists p, In p l /\ p_corr p = k /\ p_fwd p = id /\ p_stage p <> LookQ.
Proof.
  rewrite in_map_iff. split.
  - intros [p [E I]]. apply filter_In in I as [I F]. unfold flow_of in F. apply andb_true_iff in F as [F1 F2]. apply Z.eqb_eq in F2. exists p. split; [auto|split; [auto|split; [auto|]]]. intro Q. rewrite Q in F1. discriminate.
  - intros (p & I & K & F & N). exists p. split; auto. apply filter_In. split; auto. rewrite <- F. now apply flow_of_x.
Qed.
Lemma counted s h f : reach s h -> In f (s_forwards s) -> exists ks, NoDup ks /\ (forall k, In k ks <-> active (f_id f) k h) /\ (length ks <= f_running f)%nat /\ (no_loss h -> length ks = f_running f).
Proof.
  intros R I. exists (map p_corr (filter (flow_of (f_id f)) (s_pending s))). pose proof (reach_inv s h R) as H. split; [apply nodup_map_filter, (i_nodup _ _ _ H)|]. split.
  - intro k. rewrite in_flow_corrs, (active_pending s h) by auto. reflexivity.
  - rewrite map_length. destruct (reach_counts s h R f I) as [A B]. split; [exact A|]. intro N. apply B. now apply no_loss_exact.
Qed.
Lemma active_limit s h f ks : reach s h -> In f (s_forwards s) -> NoDup ks -> (forall k, In k ks -> active (f_id f) k h) -> (length ks <= f_running f)%nat.
Proof.
  intros R I N A. destruct (counted s h f R I) as (l & Nl & Al & Le & _). transitivity (length l); auto. apply NoDup_incl_length; auto. intros k K. apply Al. auto.
Qed.
(* ---- the limit ---- *)
Definition is_service (f : forward) : bool := match f_service f with Some _ => true | None => false end.
Definition Limits (s : state) (h : history) : Prop := forall f, In f (s_forwards s) -> limit (is_service f) (f_alias f) h = Some (f_configured f).
Lemma limit_app sv al h i ev : limit sv al (h ++ [(i, ev)]) = limit_step sv al (limit sv al h) i.
Proof. unfold limit. rewrite inputs_app, fold_left_app. reflexivity. Qed.
Lemma dyn_in s s' f : map dyn (s_forwards s') = map dyn (s_forwards s) -> In f (s_forwards s') -> exists g, In g (s_forwards s) /\ f_id g = f_id f /\ f_alias g = f_alias f /\ f_service g = f_service f /\ f_configured g = f_configured f.
Proof. intros E I. apply (in_map dyn) in I. rewrite E in I. apply in_map_iff in I as [g [D I]]. exists g. unfold dyn in D. injection D as D1 D2 D3 D4. auto. Qed.
Definition matchf (c : conf) (f : forward) : bool := same_kind c f && (f_alias f =? g_alias c).
Lemma matchf_is c f : matchf c f = is_of (is_service f) (f_alias f) c.
Proof. unfold matchf, is_of, same_kind, is_service. rewrite Z.eqb_sym. destruct (g_service c), (f_service f); reflexivity. Qed.
Definition keyf (f : forward) : bool * Z := (is_service f, f_alias f).
Lemma matchf_key c f : matchf c f = true <-> keyf f = (match g_service c with Some _ => true | None => false end, g_alias c).
Proof. unfold matchf, same_kind, keyf, is_service. rewrite andb_true_iff, Z.eqb_eq. destruct (g_service c), (f_service f); split; try (intros [A B]; congruence); intro E; injection E; intros; try discriminate; split; auto. Qed.
Lemma keys_set_instances c l : map keyf (set_instances c l) = map keyf l.
Proof. induction l as [|f l IH]; cbn; auto. destruct (same_kind c f && (f_alias f =? g_alias c)); cbn; [reflexivity|now rewrite IH]. Qed.
Lemma in_set_instances_conf c l f : NoDup (map keyf l) -> In f (set_instances c l) -> (matchf c f = true /\ f_configured f = g_instances c) \/ (matchf c f = false /\ In f l).
Proof.
  induction l as [|x l IH]; cbn [set_instances map]; [intros _ []|]. intros N. inversion N as [|? ? X Y]; subst. change (same_kind c x && (f_alias x =? g_alias c)) with (matchf c x). destruct (matchf c x) eqn:E.
  - intros [<-|I]; [left; split; auto|]. right. split; [|now right]. destruct (matchf c f) eqn:Q; auto. exfalso. apply X. apply matchf_key in E, Q. rewrite E, <- Q. now apply in_map.
  - intros [<-|I]; [right; split; [auto|now left]|]. destruct (IH Y I) as [A|[A B]]; auto. right. split; [auto|now right].
Qed.
Definition pick (o : option nat) (l : list conf) (f : forward) : option nat := match last_of (filter (is_of (is_service f) (f_alias f)) l) with Some c => Some (g_instances c) | None => o end.
Lemma last_of_app {A} (a b : list A) : last_of (a ++ b) = match last_of b with Some x => Some x | None => last_of a end.
Proof. unfold last_of. rewrite rev_app_distr. destruct (rev b); reflexivity. Qed.
(* [base]: the limit before, by the key *)
Lemma fold_limits (base : bool * Z -> option nat) l : forall done_ fs, NoDup (map keyf fs) ->
  (forall f, In f fs -> pick (base (keyf f)) done_ f = Some (f_configured f)) ->
  let fs' := fold_left (fun a c => add_or_update c a) l fs in
  NoDup (map keyf fs') /\ forall f, In f fs' -> pick (base (keyf f)) (done_ ++ l) f = Some (f_configured f).
Proof.
  induction l as [|c l IH]; intros done_ fs N P; cbn [fold_left].
  - cbv zeta. rewrite app_nil_r. auto.
  - specialize (IH (done_ ++ [c]) (add_or_update c fs)). rewrite <- app_assoc in IH. cbn [app] in IH. apply IH; auto.
    + unfold add_or_update. destruct (existsb _ _) eqn:E; [now rewrite keys_set_instances|]. rewrite map_app. apply nodup_app; auto; [cbn; repeat constructor; tauto|]. cbn. intros x X [<-|[]]. apply in_map_iff in X as [f [K F]].
      assert (existsb (fun f => same_kind c f && (f_alias f =? g_alias c)) fs = true) as Z; [|congruence]. apply existsb_exists. exists f. split; auto. change (matchf c f = true). apply matchf_key. rewrite K. unfold keyf, is_service, create. reflexivity.
    + intros f I. unfold pick. rewrite filter_app, last_of_app. cbn [filter]. rewrite <- matchf_is. unfold add_or_update in I. destruct (existsb _ _) eqn:E.
      * destruct (in_set_instances_conf c fs f N I) as [[A B]|[A B]]; rewrite A; cbn; [now rewrite B|]. now apply P.
      * apply in_app_or in I as [I|[<-|[]]].
        -- assert (matchf c f = false) as ->; [|cbn; now apply P]. destruct (matchf c f) eqn:Q; auto. exfalso. assert (existsb (fun f => same_kind c f && (f_alias f =? g_alias c)) fs = true) as Z; [|congruence]. apply existsb_exists. exists f. split; auto.
        -- assert (matchf c (create c (Z.of_nat (length fs) + 1)) = true) as ->; [apply matchf_key; reflexivity|]. cbn. reflexivity.
Qed.
Lemma filter_filter_kind sv al l : filter (is_of sv al) (filter (fun c => match g_service c with Some _ => true | None => false end) l ++ filter (fun c => match g_service c with Some _ => false | None => true end) l) = filter (is_of sv al) l.
Proof.
  rewrite filter_app. destruct sv.
  - assert (A : filter (is_of true al) (filter (fun c => match g_service c with Some _ => false | None => true end) l) = []).
    { induction l as [|c l IH]; cbn; auto. destruct (g_service c) eqn:E; auto. cbn. unfold is_of at 1. rewrite E. cbn. auto. }
    rewrite A, app_nil_r. clear A. induction l as [|c l IH]; cbn; auto. destruct (g_service c) eqn:E; cbn; [now rewrite IH|]. unfold is_of at 2. rewrite E. cbn. auto.
  - assert (A : filter (is_of false al) (filter (fun c => match g_service c with Some _ => true | None => false end) l) = []).
    { induction l as [|c l IH]; cbn; auto. destruct (g_service c) eqn:E; auto. cbn. unfold is_of at 1. rewrite E. cbn. auto. }
    rewrite A. cbn [app]. clear A. induction l as [|c l IH]; cbn; auto. destruct (g_service c) eqn:E; cbn; [unfold is_of at 2; rewrite E; cbn; auto|now rewrite IH].
Qed.
Lemma reach_limits s h : reach s h -> NoDup (map keyf (s_forwards s)) /\ Limits s h.
Proof.
  intro R. induction R as [|s h i R [N L] P]; [split; [constructor|intros f []]|]. pose proof (reach_inv s h R) as H. destruct (told_b i) eqn:T.
  - destruct i as [l| | | | | | | | | | | | | | |]; try discriminate T; cbn [step].
    + unfold update. cbv zeta. set (l' := filter _ l ++ filter _ l).
      destruct (fold_limits (fun key => limit (fst key) (snd key) h) l' [] (s_forwards s) N) as [A B]; [intros f I; apply (L f I)|]. cbn [app] in B.
      match goal with |- context [comply ?x] => pose proof (comply_facts x) as X; cbv zeta in X; destruct (comply x) as [s1 ev] end. cbn [fst snd s_forwards] in *. destruct X as (_ & X & _). rewrite X. cbn [s_forwards with_forwards]. split; auto.
      intros f I. cbn [fst s_forwards] in I. rewrite ?X in I. cbn [s_forwards with_forwards] in I. specialize (B f I). rewrite limit_app. cbn [limit_step]. unfold pick in B. unfold l' in B. rewrite filter_filter_kind in B. exact B.
    + match goal with |- context [comply ?x] => pose proof (comply_facts x) as X; cbv zeta in X; destruct (comply x) as [s1 ev] end. cbn [fst snd] in *. destruct X as (_ & X & _). rewrite X. cbn [s_forwards]. split; [rewrite map_map; exact N|].
      intros f I. rewrite X in I. cbn in I. apply in_map_iff in I as [g [<- I]]. rewrite limit_app. change (is_service (with_configured 0 g)) with (is_service g). change (f_alias (with_configured 0 g)) with (f_alias g). rewrite (L g I). reflexivity.
  - pose proof (step_shape _ _ _ i H T) as [_ D _ _]. split.
    + apply (f_equal (map (fun y => (match snd (snd (fst y)) with Some _ => true | None => false end, fst (snd (fst y)))))) in D. rewrite !map_map in D. cbn in D. change (map keyf (s_forwards (fst (step i s))) = map keyf (s_forwards s)) in D. now rewrite D.
    + intros f I. destruct (dyn_in _ _ f D I) as (g & G & E1 & E2 & E3 & E4). rewrite limit_app. assert (limit_step (is_service f) (f_alias f) (limit (is_service f) (f_alias f) h) i = limit (is_service f) (f_alias f) h) as -> by (destruct i; try discriminate T; reflexivity).
      rewrite <- E2, <- E4. unfold is_service. rewrite <- E3. now apply L.
Qed.
Lemma within_limit s h i ev f p k t q name : reach s (h ++ [(i, ev)]) -> In (Dequeue f p k t q name) ev ->
  exists c n, configured c (h ++ [(i, ev)]) /\ g_source c = name /\ g_enabled c = true /\ limit (match g_service c with Some _ => true | None => false end) (g_alias c) (h ++ [(i, ev)]) = Some n /\ (0 < n)%nat
   /\ forall ks, NoDup ks -> (forall j, In j ks -> active f j (h ++ [(i, ev)])) -> (length ks <= n)%nat.
Proof.
  intros R I. pose proof (reach_limits _ _ R) as [_ L]. pose proof (reach_inv _ _ R) as H'. assert (J : In (Dequeue f p k t q name) (effects (h ++ [(i, ev)]))) by (rewrite effects_app; apply in_or_app; right; cbn; rewrite app_nil_r; auto).
  destruct (effect_story k _ _ J (Z.eqb_refl k)) as [i0 I0].
  destruct (i_story _ _ _ H' k) as [E|(c & g & [Cc Ok] & Sc & S)]; [rewrite E in I0; destruct I0|]. pose proof (story_head _ _ _ _ _ S _ I0) as X. cbn in X. destruct X as (-> & _ & _ & ->).
  assert (En : g_enabled c = true). { clear - S I0. induction S as [|l j0 e S IH F]; [destruct I0|]. apply in_app_or in I0 as [I0|[I0|[]]]; auto. injection I0 as -> ->. unfold follows in F. destruct (last_of l) as [[j b]|]; [destruct b; contradiction|]. tauto. }
  pose proof R as R'. destruct (reach_snoc s h i ev R') as (s0 & R0 & P & -> & ->). pose proof (reach_inv _ _ R0) as H0.
  assert (T : told_b i = false). { destruct i; auto; exfalso; cbn [step] in I.
    - unfold update in I. cbv zeta in I. match type of I with context [comply ?x] => pose proof (comply_facts x) as X; cbv zeta in X; destruct (comply x) as [s1 ev1] end. cbn [fst snd] in *. destruct X as (_ & _ & _ & X & _). apply in_app_or in I as [I|[I|[]]]; [now apply X in I|discriminate].
    - match type of I with context [comply ?x] => pose proof (comply_facts x) as X; cbv zeta in X; destruct (comply x) as [s1 ev1] end. cbn [fst snd] in *. destruct X as (_ & _ & _ & X & _). now apply X in I. }
  pose proof (step_shape _ _ _ i H0 T) as [_ _ _ Sk]. specialize (Sk _ I). cbn in Sk. destruct Sk as (f0 & F1 & F2 & F3 & F4 & _).
  assert (Sf : static f0 = (g, conf_sta c)). { apply (nodup_inj fst (statics (fst (step i s0)))); auto; [rewrite statics_ids; now apply (inv_nodup_ids _ _ _ H')|now apply in_map]. }
  unfold static, conf_sta in Sf. injection Sf as S1 S2 S3 S4 S5 S6.
  exists c, (f_configured f0). split; [auto|split; [auto|split; [auto|split; [|split; [auto|]]]]].
  - rewrite <- S2, <- S3. apply (L f0 F1).
  - intros ks Nk Ak. rewrite <- F3. apply (active_limit _ _ f0 ks R); auto. intros j Jj. rewrite F2. auto.
Qed.
