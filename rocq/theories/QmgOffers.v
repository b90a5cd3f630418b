(* The queue manager: the queues that it knows are those that are offered. *)
From Coq Require Import ZArith List Bool Lia Permutation Sorting.Sorted.
From Verif Require Import QmgModel QmgSpec QmgProofs QmgEnt QmgQueues.
Import ListNotations.
Local Open Scope Z_scope.

Record hinv (h : history) : Prop := {
  h_conn : forall f pid p f' p', In (Connect f pid p) (inputs h) -> In (Connect f' pid p') (inputs h) -> f = f' /\ p = p';
  h_spawn : forall f pid p, In (Connect f pid p) (inputs h) -> exists c, In (Spawn f c pid) (effects h);
  h_far : forall f pid p p' n a r, In (Connect f pid p) (inputs h) -> In (Advertise p' p n a r) (inputs h) -> False;
  h_adv : forall p p' ipc n a r n' a' r', In (Advertise p ipc n a r) (inputs h) -> In (Advertise p' ipc n' a' r') (inputs h) -> p = p';
  h_neg : forall p ipc n a r, In (Advertise p ipc n a r) (inputs h) -> p < 0 }.
Lemma reach_hinv s h : reach s h -> hinv h.
Proof.
  induction 1 as [|s h i R [A B C D E] Po]; [split; cbn; tauto|]. split; rewrite ?inputs_snoc, ?effects_snoc.
  - intros f pid p f' p' J J'. apply in_snoc in J as [J|J]; apply in_snoc in J' as [J'|J']; [eauto| | |].
    + subst i. cbn in Po. destruct Po as (_ & _ & Po & _). exfalso; eapply Po; eauto.
    + subst i. cbn in Po. destruct Po as (_ & _ & Po & _). exfalso; eapply Po; eauto.
    + rewrite <- J in J'. injection J' as -> ->. auto.
  - intros f pid p J. apply in_snoc in J as [J|J]; [destruct (B _ _ _ J) as (c & I)|subst i; cbn in Po; destruct Po as (_ & (c & I) & _)]; exists c; apply in_or_app; auto.
  - intros f pid p p' n a r J J'. apply in_snoc in J as [J|J]; apply in_snoc in J' as [J'|J']; [eauto| | |congruence].
    + subst i. cbn in Po. destruct Po as (_ & _ & Po & _). eapply Po; eauto.
    + subst i. cbn in Po. destruct Po as (_ & _ & _ & _ & _ & Po). eapply Po; eauto.
  - intros p p' ipc n a r n' a' r' J J'. apply in_snoc in J as [J|J]; apply in_snoc in J' as [J'|J']; [eauto| | |congruence].
    + subst i. cbn in Po. destruct Po as (_ & _ & _ & Po). eapply Po; eauto.
    + subst i. cbn in Po. destruct Po as (_ & _ & _ & Po). symmetry. eapply Po; eauto.
  - intros p ipc n a r J. apply in_snoc in J as [J|J]; [eauto|]. subst i. cbn in Po. tauto.
Qed.

Definition from (R : list (Z * Z)) (I : list input) (x : inst) : Prop :=
  (local x = true /\ 1 <= i_pid x /\ In (Connect false (i_pid x) (i_ipc x)) I)
  \/ (local x = false /\ i_pid x < 0 /\ i_id x = remote_id /\ In (i_pid x, i_ipc x) R /\ exists n a r, In (Advertise (i_pid x) (i_ipc x) n a r) I).
Record qinv (s : state) (h : history) : Prop := {
  q_sorted : StronglySorted before (s_queues s);
  q_from : forall x, In x (s_queues s) -> from (s_remotes s) (inputs h) x;
  q_has : forall x, offers x h -> exists y, In y (s_queues s) /\ like y x;
  q_real : forall y, In y (s_queues s) -> exists x, offers x h /\ near y x;
  q_once : once h -> (forall y, In y (s_queues s) <-> offers y h) /\ uniq (s_queues s) }.
Lemma like_near y x : like y x -> near y x.
Proof. unfold like, near. tauto. Qed.
Lemma near_trans a b c : near a b -> near b c -> near a c.
Proof. unfold near. intuition congruence. Qed.
Lemma near_sym a b : near a b -> near b a.
Proof. unfold near. intuition congruence. Qed.
Lemma from_more R R' I i x : (forall r, In r R -> In r R') -> from R I x -> from R' (I ++ [i]) x.
Proof.
  intros S [(A & B & C)|(A & B & C & D & n & a & r & E)]; [left|right]; rewrite ?in_snoc.
  - auto.
  - repeat (split; [solve [auto]|]). exists n, a, r. rewrite in_snoc. auto.
Qed.
Lemma from_near R I x y : near y x -> from R I y -> from R I x.
Proof. unfold near, from. change domestic with local. intros (A & B & C & D & E). rewrite B, C, D, E. auto. Qed.
Lemma offers_from s h x : qinv s h -> offers x h -> from (s_remotes s) (inputs h) x.
Proof. intros Q O. destruct (q_has _ _ Q x O) as (y & J & L). eapply from_near; [apply like_near, L|]. apply (q_from _ _ Q), J. Qed.

(* nothing new: what is taken back is what is filtered *)
Definition takes (i : input) : bool := match i with Advertise _ _ _ _ _ | Configured false _ _ | Order _ _ => false | _ => true end.
Lemma withdraws_near i x y : takes i = true -> near y x -> withdraws i x = withdraws i y.
Proof. intros T (A & B & C & D & E). destruct i as [| | | | | | | | | |[]| | | | | | |]; cbn in *; try discriminate; rewrite ?B, ?C; auto. Qed.
Lemma filter_true {A} (l : list A) : filter (fun _ => true) l = l.
Proof. induction l; cbn; congruence. Qed.
Lemma takes_queues i s : takes i = true -> queues_after i s = filter (fun x => negb (withdraws i x)) (s_queues s).
Proof. intro T. destruct i as [| | | | | | | | | |[]| | | | | | |]; cbn in *; try discriminate; try (symmetry; apply filter_true); auto. Qed.
Lemma takes_offers i h ev x : takes i = true -> offers x (h ++ [(i, ev)]) <-> offers x h /\ withdraws i x = false.
Proof.
  intro T. split.
  - intro O. apply offers_inv in O as [(pid & ipc & c & qs & name & id & -> & _)|[(pid & ipc & n & add & rem & name & e & d & -> & _)|(y & O & W & ->)]]; try discriminate. destruct i; try discriminate; auto.
  - intros [O W]. replace x with (changed i x) by (destruct i; try discriminate; reflexivity). now apply offers_since.
Qed.
Lemma qinv_takes s h i ev s' : takes i = true -> s_queues s' = queues_after i s -> s_remotes s' = remotes_after i s -> qinv s h -> qinv s' (h ++ [(i, ev)]).
Proof.
  intros T EQ ER [A B C D E]. assert (IN : forall y, In y (s_queues s') <-> In y (s_queues s) /\ withdraws i y = false). { intro y. rewrite EQ, takes_queues, filter_In, negb_true_iff by auto. tauto. }
  split.
  - rewrite EQ, takes_queues by auto. now apply filter_sorted.
  - intros x J. apply IN in J as [J W]. rewrite inputs_snoc. destruct (B x J) as [F|F]; [apply (from_more (s_remotes s')); [auto|left; exact F]|].
    destruct F as (F1 & F2 & F3 & F4 & n & a & r & F5). right. repeat (split; [solve [auto]|]). split.
    + rewrite ER. destruct i; cbn in *; try discriminate; auto; apply filter_In; (split; [auto|]); cbn; now rewrite W.
    + exists n, a, r. apply in_snoc. auto.
  - intros x O. apply takes_offers in O as [O W]; auto. destruct (C x O) as (y & J & L). exists y. split; auto. apply IN. split; auto. rewrite <- W. symmetry. apply withdraws_near; auto. now apply like_near.
  - intros y J. apply IN in J as [J W]. destruct (D y J) as (x & O & N). exists x. split; auto. apply takes_offers; auto. split; auto. rewrite <- W. apply withdraws_near; auto.
  - intro O. apply once_inv in O as [O _]. destruct (E O) as [E1 E2]. split.
    + intro y. rewrite IN, takes_offers by auto. now rewrite E1.
    + rewrite EQ, takes_queues by auto. now apply uniq_filter.
Qed.
Lemma NoDup_app_key (a b : list (Z * Z)) : NoDup a -> NoDup b -> (forall x, In x a -> ~ In x b) -> NoDup (a ++ b).
Proof. induction a as [|x a IH]; cbn; auto. intros A B C. inversion A as [|? ? N R]; subst. constructor; [|apply IH; auto]. rewrite in_app_iff. intros [J|J]; [auto|]. eapply C; eauto. Qed.
Lemma qinv_advertise s h ev pid ipc n add rem s' : hinv h -> possible h (Advertise pid ipc n add rem) -> s_queues s' = queues_after (Advertise pid ipc n add rem) s -> s_remotes s' = remotes_after (Advertise pid ipc n add rem) s -> qinv s h -> qinv s' (h ++ [(Advertise pid ipc n add rem, ev)]).
Proof.
  intros HI Po EQ ER Q. pose proof Q as [A B C D E]. cbn in Po. destruct Po as (_ & NE & NC & AU). cbn [queues_after remotes_after] in EQ, ER. rewrite advertise_queues in EQ.
  assert (IN : forall y, In y (s_queues s') <-> ((exists q, In q add /\ y = remote_inst pid ipc n q) \/ In y (s_queues s)) /\ (i_ipc y = ipc -> ~ In (i_name y) rem)).
  { intro y. rewrite EQ, filter_In, inserts_in, negb_true_iff, in_map_iff. assert (W : (i_ipc y =? ipc) && existsb (Z.eqb (i_name y)) rem = false <-> (i_ipc y = ipc -> ~ In (i_name y) rem)).
    { destruct (i_ipc y =? ipc) eqn:P; cbn [andb]. - apply Z.eqb_eq in P. rewrite <- existsb_eqb. destruct (existsb _ _); intuition congruence. - apply Z.eqb_neq in P. intuition congruence. }
    rewrite W. split; intros [[(q & J)|J] K]; split; auto; left; exists q; intuition. }
  assert (WD : forall x, withdraws (Advertise pid ipc n add rem) x = false <-> (i_ipc x = ipc -> ~ In (i_name x) rem /\ ~ In (i_name x) (map fst add))).
  { intro x. cbn. destruct (i_ipc x =? ipc) eqn:P; cbn [andb]; [|apply Z.eqb_neq in P; intuition congruence]. apply Z.eqb_eq in P. rewrite orb_false_iff, <- existsb_eqb.
    assert (existsb (fun q => fst q =? i_name x) add = true <-> In (i_name x) (map fst add)) as K. { rewrite existsb_exists, in_map_iff. split; intros (q & U & V); exists q; [apply Z.eqb_eq in V|]; auto. split; auto. now apply Z.eqb_eq. }
    rewrite <- K. destruct (existsb _ rem), (existsb _ add); intuition congruence. }
  destruct (advertise_remote_in pid ipc n add rem s) as [RI RM]. rewrite <- ER in RI, RM.
  assert (LR : forall q, local (remote_inst pid ipc n q) = false) by (intro q; unfold local; cbn; apply Nat.eqb_neq; lia).
  assert (FR : forall x, In x (s_queues s) -> i_ipc x = ipc -> local x = false /\ i_pid x = pid /\ i_id x = remote_id).
  { intros x J P. destruct (B x J) as [(F1 & F2 & F3)|(F1 & F2 & F3 & F4 & n0 & a & r & F5)]; [rewrite P in F3; exfalso; eapply NC; eauto|]. rewrite P in F5. rewrite (AU _ _ _ _ F5) in *. auto. }
  split.
  - rewrite EQ. apply filter_sorted. now apply fold_insert_sorted.
  - intros x J. apply IN in J as [[(q & J & ->)|J] _]; rewrite inputs_snoc; [|apply (from_more (s_remotes s)); auto].
    right. split; [apply LR|]. cbn. repeat (split; [solve [auto]|]). exists n, add, rem. apply in_snoc. auto.
  - intros x O. apply offers_inv in O as [(? & ? & ? & ? & ? & ? & O & _)|[(pid' & ipc' & n' & add' & rem' & name & e & d & O & -> & J & K)|(y & O & W & ->)]]; [discriminate| |].
    + injection O as <- <- <- <- <-. exists (remote_inst pid ipc n (name, (e, d))). split; [|apply like_refl]. apply IN. split; [left; eauto|]. intros _. exact K.
    + cbn [changed]. destruct (C y O) as (z & J & L). exists z. split; auto. apply IN. split; auto. destruct L as (L1 & _ & L3 & _). rewrite L1, L3. intro P. apply (proj1 (WD y) W P).
  - intros y J. apply IN in J as [[(q & J & ->)|J] K].
    + destruct q as [name [e d]]. exists (remote_inst pid ipc n (name, (e, d))). split; [|apply like_near, like_refl]. apply offers_remote with (1 := J). now apply K.
    + destruct (D y J) as (x & O & N). destruct (withdraws (Advertise pid ipc n add rem) x) eqn:W; [|exists x; split; [|auto]; now apply (offers_since h x (Advertise pid ipc n add rem) ev)].
      destruct N as (N1 & N2 & N3 & N4 & N5). assert (P : i_ipc x = ipc). { cbn in W. apply andb_prop in W as [W _]. now apply Z.eqb_eq. }
      assert (IA : In (i_name x) (map fst add)). { cbn in W. apply andb_prop in W as [_ W]. apply orb_prop in W as [W|W]; [apply existsb_eqb in W; rewrite N3, N1 in K; exfalso; now apply K|]. apply existsb_exists in W as (q & W1 & W2). apply Z.eqb_eq in W2. rewrite <- W2. now apply in_map. }
      apply in_map_iff in IA as ([name [e d]] & IA1 & IA). cbn in IA1. exists (remote_inst pid ipc n (name, (e, d))). split.
      * apply offers_remote with (1 := IA). rewrite IA1, <- N1. apply K. congruence.
      * destruct (FR y J) as (F1 & F2 & F3); [congruence|]. unfold near. change domestic with local in *. rewrite LR. cbn. repeat split; congruence.
  - intro O. apply once_inv in O as [O On]. destruct (E O) as [E1 E2]. destruct (On _ _ _ _ _ eq_refl) as [ND NO]. split.
    + intro y. rewrite IN. split.
      * intros [[(q & J & ->)|J] K]; [destruct q as [name [e d]]; apply offers_remote with (1 := J); now apply K|]. apply E1 in J. apply (offers_since h y (Advertise pid ipc n add rem) ev J), WD. intro P. split; [auto|]. eapply NO; eauto.
      * intro P. apply offers_inv in P as [(? & ? & ? & ? & ? & ? & P & _)|[(pid' & ipc' & n' & add' & rem' & name & e & d & P & -> & J & K)|(z & P & W & ->)]]; [discriminate| |].
        -- injection P as <- <- <- <- <-. split; [left; exists (name, (e, d)); auto|]. intros _. exact K.
        -- cbn [changed]. split; [right; now apply E1|]. intro X. apply (proj1 (WD z) W X).
    + rewrite EQ. apply uniq_filter. apply (uniq_perm (map (remote_inst pid ipc n) add ++ s_queues s)); [apply Permutation_sym, fold_insert_perm|]. unfold uniq, far. rewrite filter_app, map_app. apply NoDup_app_key.
      * assert (X : filter (fun x => negb (local x)) (map (remote_inst pid ipc n) add) = map (remote_inst pid ipc n) add). { clear -LR. induction add as [|q l IH]; cbn -[local]; auto. rewrite LR. cbn. now rewrite IH. }
        rewrite X, map_map. clear -ND. induction add as [|q l IH]; cbn; [constructor|]. inversion ND as [|? ? N R]; subst. constructor; auto. intro J. apply N. apply in_map_iff in J as (r & J1 & J). cbn in J1. injection J1 as J1. rewrite <- J1. now apply in_map.
      * exact E2.
      * intros k J J'. apply in_map_iff in J as (x & K & J). apply filter_In in J as [J _]. apply in_map_iff in J as (q & <- & J). apply in_map_iff in J' as (y & K' & J'). apply in_far in J' as [J' _]. rewrite <- K in K'. unfold key in K'. cbn in K'. injection K' as K1 K2. eapply NO; [apply E1, J'|auto|]. rewrite K1. now apply in_map.
Qed.
Lemma qinv_order s h ev ipc n s' : hinv h -> possible h (Order ipc n) -> s_queues s' = queues_after (Order ipc n) s -> s_remotes s' = remotes_after (Order ipc n) s -> qinv s h -> qinv s' (h ++ [(Order ipc n, ev)]).
Proof.
  intros HI Po EQ ER Q. pose proof Q as [A B C D E]. cbn in Po. destruct Po as (_ & NC). cbn [queues_after remotes_after] in EQ, ER.
  assert (FR : forall x, In x (s_queues s) -> i_ipc x = ipc -> local x = false).
  { intros x J P. destruct (B x J) as [(F1 & F2 & F3)|(F1 & _)]; [rewrite P in F3; exfalso; eapply NC; eauto|auto]. }
  assert (SQ : s_queues s' = sort (reorder ipc (n + 1) [] (s_queues s)) \/ (s_queues s' = s_queues s /\ forall x, In x (s_queues s) -> i_ipc x <> ipc)).
  { unfold order_of in EQ. destruct (existsb _ _) eqn:X; [auto|]. right. split; [auto|]. intros x J P. destruct (B x J) as [(F1 & F2 & F3)|(F1 & F2 & F3 & F4 & _)]; [rewrite P in F3; eapply NC; eauto|]. assert (existsb (fun r => snd r =? ipc) (s_remotes s) = true) by (apply existsb_exists; exists (i_pid x, i_ipc x); split; [auto|now apply Z.eqb_eq]). congruence. }
  assert (CH : forall x, i_ipc x <> ipc -> changed (Order ipc n) x = x) by (intros x P; cbn; apply Z.eqb_neq in P; now rewrite P).
  assert (CL : forall x, (i_ipc x = ipc -> local x = false) -> like (changed (Order ipc n) x) x).
  { intros x P. cbn. destruct (i_ipc x =? ipc) eqn:X; [|apply like_refl]. apply Z.eqb_eq in X. unfold like. cbn. repeat (split; [reflexivity|]). rewrite (P X). unfold local. cbn. apply Nat.eqb_neq. lia. }
  assert (OF : forall x, offers x h -> i_ipc x = ipc -> local x = false).
  { intros x O P. destruct (C x O) as (y & J & (L1 & L2 & L3 & _ & _ & _ & L7)). rewrite <- L7. apply FR; congruence. }
  assert (TO : forall y, In y (s_queues s) -> exists z, In z (s_queues s') /\ like z y).
  { intros y J. destruct SQ as [SQ|[SQ NO]]; [|exists y; split; [congruence|apply like_refl]]. destruct (reorder_in ipc n (s_queues s) [] y J) as (z & Z1 & Z2); [auto|]. exists z. split; auto. rewrite SQ. apply (Permutation_in _ (Permutation_sym (sort_perm _))), Z1. }
  assert (FROM : forall z, In z (s_queues s') -> exists y, In y (s_queues s) /\ like z y).
  { intros z J. destruct SQ as [SQ|[SQ NO]]; [|exists z; split; [congruence|apply like_refl]]. rewrite SQ in J. apply (Permutation_in _ (sort_perm _)) in J. eapply in_reorder; eauto. }
  split.
  - destruct SQ as [->|[-> _]]; [apply sort_sorted|auto].
  - intros x J. destruct (FROM x J) as (y & J' & L). rewrite inputs_snoc. apply (from_more (s_remotes s)); [now rewrite ER|]. eapply from_near; [apply near_sym, like_near, L|auto].
  - intros x O. apply offers_inv in O as [(? & ? & ? & ? & ? & ? & O & _)|[(? & ? & ? & ? & ? & ? & ? & ? & O & _)|(y & O & W & ->)]]; [discriminate|discriminate|].
    destruct (C y O) as (z & J & L). destruct (TO z J) as (z' & J' & L'). exists z'. split; auto. eapply like_trans; [exact L'|]. eapply like_trans; [exact L|]. apply like_sym, CL. auto.
  - intros z J. destruct (FROM z J) as (y & J' & L). destruct (D y J') as (x & O & N). exists (changed (Order ipc n) x). split; [apply offers_since; auto|]. eapply near_trans; [apply like_near, L|]. eapply near_trans; [exact N|]. apply like_near, like_sym, CL. auto.
  - intro O. apply once_inv in O as [O _]. destruct (E O) as [E1 E2].
    assert (SQ' : Permutation (s_queues s') (map (changed (Order ipc n)) (s_queues s))).
    { destruct SQ as [->|[-> NO]].
      - eapply perm_trans; [apply sort_perm|]. rewrite reorder_map; auto. 
      - replace (map (changed (Order ipc n)) (s_queues s)) with (s_queues s); auto. rewrite <- map_id at 1. apply map_ext_in. intros x J. symmetry. apply CH, NO, J. }
    split.
    + intro y. split.
      * intro J. apply (Permutation_in _ SQ') in J. apply in_map_iff in J as (x & <- & J). apply offers_since; [now apply E1|reflexivity].
      * intro P. apply offers_inv in P as [(? & ? & ? & ? & ? & ? & P & _)|[(? & ? & ? & ? & ? & ? & ? & ? & P & _)|(x & P & W & ->)]]; [discriminate|discriminate|]. apply (Permutation_in _ (Permutation_sym SQ')), in_map, E1, P.
    + apply (uniq_perm (map (changed (Order ipc n)) (s_queues s))); [now apply Permutation_sym|]. unfold uniq.
      assert (X : map key (far (map (changed (Order ipc n)) (s_queues s))) = map key (far (s_queues s))); [|now rewrite X]. clear -FR. induction (s_queues s) as [|x r IH]; [reflexivity|]. unfold far in *. cbn [map filter].
      assert (L : local (changed (Order ipc n) x) = local x /\ key (changed (Order ipc n) x) = key x). { cbn. destruct (i_ipc x =? ipc) eqn:P; [|auto]. apply Z.eqb_eq in P. rewrite (FR x); cbn; auto. split; [|auto]. unfold local. cbn. apply Nat.eqb_neq. lia. }
      destruct L as [-> K]. destruct (negb (local x)); cbn [map]; rewrite ?K, IH; auto; intros; apply FR; cbn; auto.
Qed.
Lemma in_eq {A} (x : A) l l' : l = l' -> In x l -> In x l'.
Proof. now intros ->. Qed.
Lemma qinv_configured s h ev pid qs s' : reach s h -> possible h (Configured false pid qs) -> s_queues s' = queues_after (Configured false pid qs) s -> s_remotes s' = s_remotes s -> qinv s h -> qinv s' (h ++ [(Configured false pid qs, ev)]).
Proof.
  intros R Po EQ ER Q. pose proof Q as [A B C D E]. cbn in Po. destruct Po as (_ & ipc & Co). cbn [queues_after] in EQ.
  pose proof (reach_hinv s h R) as HI. pose proof (reach_einv s h R) as EI. pose proof (einv_coordinate (MConfigured false pid) s _ _ EI) as EI'.
  set (s1 := fst (coordinate (MConfigured false pid) s)) in *. set (E' := effects h ++ snd (coordinate (MConfigured false pid) s)) in *.
  destruct (coordinate_rest (MConfigured false pid) s) as [(_ & SQ & _) _]. fold s1 in SQ.
  destruct (h_spawn _ HI _ _ _ Co) as (c & Sp). assert (Sp' : In (Spawn false c pid) E') by (apply in_or_app; auto).
  assert (PP : 1 <= pid) by (apply (e_fresh _ _ _ EI) in Sp; lia).
  assert (NEW : (exists e, find_entity pid (s_groups s1) = Some e /\ e_pid e = pid /\ e_ipc e = ipc /\ e_conf e = c /\ ~ exited pid h) \/ (find_entity pid (s_groups s1) = None /\ exited pid h)).
  { destruct (find_entity pid (s_groups s1)) as [e|] eqn:F.
    - left. exists e. apply find_entity_in in F as [F1 F2]. destruct (e_live _ _ _ EI' false e F1) as [L1 L2]. rewrite F2 in L1, L2. destruct (e_uniq _ _ _ EI' _ _ _ _ _ L1 Sp') as [_ L3].
      split; [auto|]. split; [auto|]. split; [|split; [auto|exact L2]]. destruct (e_addr _ _ _ EI' false e F1) as [[_ P]|P]; rewrite F2 in P; [exfalso; eapply P; eauto|]. destruct (h_conn _ HI _ _ _ _ _ P Co); auto.
    - right. split; [auto|]. destruct (in_dec Z.eq_dec pid (map (fun i => match i with Exit p | Dead p => p | _ => 0 end) (inputs h))) as [J|J].
      + apply in_map_iff in J as (i & P & J). destruct i; try lia; subst pid0; [left|right]; auto.
      + exfalso. destruct (e_there _ _ _ EI' false c pid Sp') as (e & J' & P1 & P2). * intros [O|O]; apply J; apply in_map_iff; [exists (Exit pid)|exists (Dead pid)]; auto. * exact (find_entity_none _ _ F e J' P2). }
  assert (IN : forall y, In y (s_queues s') <-> (In y (s_queues s) /\ i_pid y <> pid) \/ (~ exited pid h /\ exists q, In q qs /\ y = Inst (fst q) pid ipc (snd q) 0 (fst (enable_of c (fst q))) (snd (enable_of c (fst q))))).
  { intro y. rewrite EQ. unfold update_group. cbn [drop_pid with_queues s_groups]. destruct NEW as [(e & F & P1 & P2 & P3 & P4)|[F P]]; rewrite F.
    - rewrite add_locals, inserts_in. cbn. rewrite filter_In, SQ, negb_true_iff, Z.eqb_neq, in_map_iff. unfold local_inst. rewrite P1, P2, P3. split; [intros [(q & <- & J)|J]; [right; split; [auto|]; exists q; auto|auto]|]. intros [J|[_ (q & J & ->)]]; [auto|left; exists q; auto].
    - cbn. rewrite filter_In, SQ, negb_true_iff, Z.eqb_neq. tauto. }
  assert (SO : StronglySorted before (s_queues s')).
  { rewrite EQ. unfold update_group. cbn [drop_pid with_queues s_groups]. destruct (find_entity pid (s_groups s1)) as [e|].
    - rewrite add_locals. apply fold_insert_sorted. cbn. apply filter_sorted. now rewrite SQ.
    - cbn. apply filter_sorted. now rewrite SQ. }
  assert (PIDS : forall x, offers x (h ++ [(Configured false pid qs, ev)]) <-> (offers x h /\ i_pid x <> pid) \/ (~ exited pid h /\ exists q, In q qs /\ x = Inst (fst q) pid ipc (snd q) 0 (fst (enable_of c (fst q))) (snd (enable_of c (fst q))))).
  { intro x. split.
    - intro O. apply offers_inv in O as [(pid' & ipc' & c' & qs' & name & id & O & -> & P1 & P2 & P3 & P4)|[(? & ? & ? & ? & ? & ? & ? & ? & O & _)|(y & O & W & ->)]]; [|discriminate|].
      + injection O as <- <-. right. split; [auto|]. exists (name, id). split; [auto|]. cbn. destruct (h_conn _ HI _ _ _ _ _ P2 Co) as [_ ->]. destruct (e_uniq _ _ _ EI _ _ _ _ _ P1 Sp) as [_ ->]. auto.
      + left. cbn in *. apply Z.eqb_neq in W. auto.
    - intros [[O N]|[N ([name id] & J & ->)]].
      + apply (offers_since h x (Configured false pid qs) ev); auto. cbn. now apply Z.eqb_neq.
      + cbn. apply offers_group; auto. }
  split; auto.
  - intros y J. rewrite inputs_snoc. apply IN in J as [[J _]|[_ (q & J & ->)]].
    + apply (from_more (s_remotes s)); [now rewrite ER|auto].
    + left. cbn. repeat (split; [solve [auto]|]). apply in_snoc. auto.
  - intros x O. apply PIDS in O as [[O N]|O]; [|exists x; split; [apply IN; auto|apply like_refl]]. destruct (C x O) as (y & J & L). exists y. split; [|auto]. apply IN. left. split; auto. destruct L as (_ & L & _). congruence.
  - intros y J. apply IN in J as [[J N]|J]; [|exists y; split; [apply PIDS; auto|apply like_near, like_refl]]. destruct (D y J) as (x & O & L). exists x. split; [|auto]. apply PIDS. left. split; auto. destruct L as (_ & L & _). congruence.
  - intro O. apply once_inv in O as [O _]. destruct (E O) as [E1 E2]. split.
    + intro y. rewrite IN, PIDS, E1. tauto.
    + rewrite EQ. unfold update_group. cbn [drop_pid with_queues s_groups]. destruct (find_entity pid (s_groups s1)) as [e|].
      * rewrite add_locals. cbn. rewrite SQ. apply (uniq_perm (map (local_inst e) qs ++ filter (fun x => negb (i_pid x =? pid)) (s_queues s))); [apply Permutation_sym, fold_insert_perm|]. unfold uniq, far. rewrite filter_app.
        replace (filter (fun x => negb (local x)) (map (local_inst e) qs)) with (@nil inst); [now apply uniq_filter|]. clear. induction qs; cbn; auto.
      * cbn. rewrite SQ. now apply uniq_filter.
Qed.
Lemma reach_qinv s h : reach s h -> qinv s h.
Proof.
  induction 1 as [|s h i R IH Po].
  - split; cbn; try tauto. + constructor. + intros x O. now apply offers_nil in O. + intros _. split; [|constructor]. intro y. split; [tauto|]. intro O. now apply offers_nil in O.
  - destruct (step_queues i s) as [EQ ER]. destruct (takes i) eqn:T; [now apply (qinv_takes s)|].
    destruct i as [m|l|p k|pid ipc n add rem|ipc n|ipc|k|p k|p k int names|f pid ipc|[] pid qs|pid|pid|ipc|p k m| | |ipc]; try discriminate.
    + apply (qinv_advertise s); auto. eapply reach_hinv; eauto.
    + apply (qinv_order s); auto. eapply reach_hinv; eauto.
    + apply (qinv_configured s); auto.
Qed.
