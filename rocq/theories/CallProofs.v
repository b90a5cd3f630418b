From Coq Require Import ZArith List Bool Lia Sorting.Sorted.
From Verif Require Import CodesModel CtxModel CallModel CallSpec.
Import ListNotations.
Local Open Scope Z_scope.

(* ---------------------------------------------------------------- descriptors *)
Definition ordered (l : list desc) : Prop := StronglySorted Z.lt (map d_id l) /\ Forall (fun x => 0 < d_id x) l.
Lemma ss_id x l : StronglySorted Z.lt (x :: l) -> StronglySorted Z.lt l /\ forall y, In y l -> x < y.
Proof. intros H. apply StronglySorted_inv in H. destruct H as [H F]. split; [exact H|]. rewrite Forall_forall in F. exact F. Qed.
Lemma ordered_inj l x y : ordered l -> In x l -> In y l -> d_id x = d_id y -> x = y.
Proof.
  intros (S0 & _). induction l as [|z l IH]; cbn in *; [tauto|]. apply ss_id in S0. destruct S0 as [S1 F]. intros [-> | X] [-> | Y] E; auto.
  - specialize (F (d_id y) (in_map _ _ _ Y)). lia.
  - specialize (F (d_id x) (in_map _ _ _ X)). lia.
Qed.
Lemma reserve_spec c last l l' d : StronglySorted Z.lt (map d_id l) -> Forall (fun x => last < d_id x) l -> reserve c last l = (l', d) ->
  last < d /\ StronglySorted Z.lt (map d_id l') /\ Forall (fun x => last < d_id x) l' /\
  (forall x, In x l' <-> (In x l /\ d_id x <> d) \/ x = mk_desc d true c) /\ (forall x, In x l -> d_id x = d -> d_active x = false).
Proof.
  revert last l' d. induction l as [|x l IH]; cbn [reserve]; intros last l' d S0 F E.
  - injection E as <- <-. cbn. split; [lia|]. split; [repeat constructor|]. split; [repeat constructor; cbn; lia|]. split; [intros x; intuition auto|tauto].
  - cbn [map] in S0. apply ss_id in S0. destruct S0 as [S1 G]. inversion_clear F as [|? ? Fx Fl].
    destruct (d_active x) eqn:A.
    + destruct (reserve c (d_id x) l) as [r1 d1] eqn:R. injection E as <- <-.
      assert (Fl' : Forall (fun y => d_id x < d_id y) l) by (apply Forall_forall; intros y Iy; apply G, in_map, Iy).
      destruct (IH _ _ _ S1 Fl' R) as (Hd & S2 & F2 & I2 & A2). split; [lia|]. split.
      * cbn [map]. constructor; [exact S2|]. apply Forall_map. exact F2.
      * split. { constructor; [exact Fx|]. eapply Forall_impl; [|exact F2]. cbn. intros. lia. }
        split.
        -- intros y. cbn [In]. rewrite I2. split.
           ++ intros [<- | [[I N] | ->]]; [left; split; [left; reflexivity|lia]|left; tauto|right; reflexivity].
           ++ intros [[[<- | I] N] | ->]; tauto.
        -- cbn [In]. intros y [<- | I] E; [lia|exact (A2 y I E)].
    + injection E as <- <-. split; [exact Fx|]. split; [cbn [map d_id]; constructor; [exact S1|]; apply Forall_forall; exact G|].
      split; [constructor; [exact Fx|exact Fl]|]. split.
      * intros y. cbn [In]. split.
        -- intros [<- | I]; [right; reflexivity|]. left. split; [right; exact I|]. specialize (G (d_id y) (in_map _ _ _ I)). lia.
        -- intros [[[<- | I] N] | ->]; [lia|tauto|left; reflexivity].
      * cbn [In]. intros y [<- | I] E; [exact A|]. specialize (G (d_id y) (in_map _ _ _ I)). lia.
Qed.
Lemma unreserve_ids d l : map d_id (unreserve d l) = map d_id l.
Proof. induction l as [|x l IH]; cbn; [reflexivity|]. destruct (Z.eqb_spec (d_id x) d) as [<- |]; cbn; [reflexivity|]. rewrite IH. reflexivity. Qed.
Lemma unreserve_in d l : StronglySorted Z.lt (map d_id l) -> forall x, In x (unreserve d l) <-> (In x l /\ d_id x <> d) \/ exists y, In y l /\ d_id y = d /\ x = mk_desc d false (d_corr y).
Proof.
  induction l as [|z l IH]; cbn [unreserve map]; intros S0 x.
  - cbn. split; [tauto|]. intros [[[] _] | (y & [] & _)].
  - apply ss_id in S0. destruct S0 as [S1 G]. destruct (Z.eqb_spec (d_id z) d) as [E | E]; cbn [In].
    + split.
      * intros [<- | I]; [right; exists z; auto|]. left. split; [auto|]. specialize (G (d_id x) (in_map _ _ _ I)). lia.
      * intros [[[-> | I] N] | (y & [-> | I] & Ey & ->)]; [lia|tauto|left; reflexivity|]. specialize (G (d_id y) (in_map _ _ _ I)). lia.
    + rewrite (IH S1). split.
      * intros [<- | [[I N] | (y & I & Ey & ->)]]; [left; auto|left; auto|right; exists y; auto].
      * intros [[[-> | I] N] | (y & [-> | I] & Ey & ->)]; [tauto|tauto|lia|]. right. right. exists y. auto.
Qed.
Lemma unreserve_ordered d l : ordered l -> ordered (unreserve d l).
Proof.
  intros (S0 & F). split; [rewrite unreserve_ids; exact S0|]. rewrite Forall_forall in F. apply Forall_forall. intros x I. apply (unreserve_in d l S0) in I.
  destruct I as [[I _] | (y & I & Ey & ->)]; [exact (F x I)|]. cbn. rewrite <- Ey. exact (F y I).
Qed.
Lemma get_some d l x : get d l = Some x -> In x l /\ d_id x = d /\ d_active x = true.
Proof. unfold get. destruct (find _ l) as [y|] eqn:F; [|discriminate]. destruct (d_active y) eqn:A; [|discriminate]. intros H. injection H as ->. apply find_some in F. destruct F as [I E]. apply Z.eqb_eq in E. auto. Qed.
Lemma get_in d l x : ordered l -> In x l -> d_id x = d -> d_active x = true -> get d l = Some x.
Proof.
  intros O I E A. unfold get. destruct (find (fun x => d_id x =? d) l) as [y|] eqn:F.
  - apply find_some in F. destruct F as [Iy Ey]. apply Z.eqb_eq in Ey. rewrite (ordered_inj l y x O Iy I) by lia. rewrite A. reflexivity.
  - exfalso. pose proof (find_none _ _ F x I) as N. cbn in N. apply Z.eqb_neq in N. lia.
Qed.
Lemma get_corr_some c l x : get_corr c l = Some x -> In x l /\ d_corr x = c /\ d_active x = true.
Proof. unfold get_corr. destruct (find _ l) as [y|] eqn:F; [|discriminate]. destruct (d_active y) eqn:A; [|discriminate]. intros H. injection H as ->. apply find_some in F. destruct F as [I E]. apply Z.eqb_eq in E. auto. Qed.

Definition distinct (l : list desc) : Prop := forall x y, In x l -> In y l -> d_corr x = d_corr y -> d_corr x <> 0 -> x = y.
Lemma get_corr_in c l x : distinct l -> In x l -> d_corr x = c -> c <> 0 -> d_active x = true -> get_corr c l = Some x.
Proof.
  intros O I E N A. unfold get_corr. destruct (find (fun x => d_corr x =? c) l) as [y|] eqn:F.
  - apply find_some in F. destruct F as [Iy Ey]. apply Z.eqb_eq in Ey. rewrite (O y x Iy I) by lia. rewrite A. reflexivity.
  - exfalso. pose proof (find_none _ _ F x I) as Q. cbn in Q. apply Z.eqb_neq in Q. lia.
Qed.

(* ---------------------------------------------------------------- sub *)
Lemma sub_refl {A} (l : list A) : sub l l.
Proof. induction l; constructor; assumption. Qed.
Lemma sub_nil_l {A} (l : list A) : sub [] l.
Proof. induction l; constructor; assumption. Qed.
Lemma sub_app {A} (a b c d : list A) : sub a b -> sub c d -> sub (a ++ c) (b ++ d).
Proof. induction 1; cbn; intros; [assumption| |]; constructor; auto. Qed.
Lemma sub_trans {A} (a b c : list A) : sub a b -> sub b c -> sub a c.
Proof.
  intros H1 H2. revert a H1. induction H2; intros a H1; [exact H1| |].
  - inversion H1; subst; [constructor; auto|apply sub_skip; auto].
  - apply sub_skip. auto.
Qed.
Lemma sub_length {A} (a b : list A) : sub a b -> (length a <= length b)%nat.
Proof. induction 1; cbn; lia. Qed.
Lemma sub_in {A} (a b : list A) x : sub a b -> In x a -> In x b.
Proof. induction 1; cbn; intuition auto. Qed.

(* ---------------------------------------------------------------- the device *)
Definition cached (c : Z) (s : proc) : list reply := flat_map (fun x => if fst x =? c then [snd x] else []) (p_cache s).
Lemma take_some {A} p (l : list A) x r : take p l = Some (x, r) -> exists a b, l = a ++ x :: b /\ r = a ++ b /\ p x = true /\ forall y, In y a -> p y = false.
Proof.
  revert x r. induction l as [|z l IH]; cbn; intros x r H; [discriminate|]. destruct (p z) eqn:P.
  - injection H as -> ->. exists [], r. cbn. intuition auto.
  - destruct (take p l) as [[y q]|] eqn:T; [|discriminate]. injection H as -> <-. destruct (IH _ _ eq_refl) as (a & b & -> & -> & Px & N).
    exists (z :: a), b. cbn. intuition (subst; auto).
Qed.
Lemma take_none {A} p (l : list A) : take p l = None -> forall y, In y l -> p y = false.
Proof. induction l as [|z l IH]; cbn; [tauto|]. destruct (p z) eqn:P; [discriminate|]. destruct (take p l) as [[y q]|]; [discriminate|]. intros H y [<- | I]; auto. Qed.
Lemma take_cached c l r q : take (fun x : Z * reply => fst x =? c) l = Some ((c, r), q) ->
  flat_map (fun x => if fst x =? c then [snd x] else []) l = r :: flat_map (fun x => if fst x =? c then [snd x] else []) q /\
  forall k, k <> c -> flat_map (fun x => if fst x =? k then [snd x] else []) l = flat_map (fun x => if fst x =? k then [snd x] else []) q.
Proof.
  intros H. apply take_some in H. destruct H as (a & b & -> & -> & _ & N). rewrite !flat_map_app. cbn. rewrite Z.eqb_refl. cbn. split.
  - assert (Z : flat_map (fun x : Z * reply => if fst x =? c then [snd x] else []) a = []) by (clear -N; induction a as [|y a IH]; cbn; [reflexivity|]; rewrite (N y (or_introl eq_refl)), IH; [reflexivity|intros; apply N; right; assumption]).
    rewrite Z. reflexivity.
  - intros k K. rewrite !flat_map_app. cbn. destruct (Z.eqb_spec c k); [congruence|reflexivity].
Qed.
Lemma take_fst c (l : list (Z * reply)) m q : take (fun x => fst x =? c) l = Some (m, q) -> fst m = c.
Proof. intros H. apply take_some in H. destruct H as (a & b & _ & _ & P & _). apply Z.eqb_eq in P. exact P. Qed.
Lemma mem_spec x l : mem x l = true <-> In x l.
Proof. unfold mem. rewrite existsb_exists. split; [intros (y & I & E); apply Z.eqb_eq in E; subst; exact I|intros I; exists x; rewrite Z.eqb_refl; auto]. Qed.
Lemma mem_not x l : mem x l = false <-> ~ In x l.
Proof. rewrite <- mem_spec. destruct (mem x l); split; intros; congruence. Qed.
Lemma erase_in x y l : In y (erase_first x l) -> In y l.
Proof. induction l as [|z l IH]; cbn; [tauto|]. destruct (z =? x); [tauto|]. intros [-> |]; auto. Qed.

Lemma NoDup_app_one (l : list Z) x : NoDup l -> ~ In x l -> NoDup (l ++ [x]).
Proof. intros N H. apply NoDup_rev in N. rewrite <- (rev_involutive (l ++ [x])). apply NoDup_rev. rewrite rev_app_distr. cbn. constructor; [rewrite <- in_rev; exact H|exact N]. Qed.

(* ---------------------------------------------------------------- the invariant *)
Definition reflects (o : list (Z * Z)) (l : list desc) : Prop := forall d c, In (d, c) o <-> In (mk_desc d true c) l.
Definition device (v : list event) (s : proc) : Prop := forall c,
  sub (taken c v ++ cached c s) (arrived c v) /\ (~ In (Discarded c) v -> ~ In c (p_disc s) /\ taken c v ++ cached c s = arrived c v).
Record inv (o : list (Z * Z)) (v : list event) (s : proc) : Prop := {
  i_ordered : ordered (p_descs s);
  i_next : 0 < p_next s;
  i_corrs : forall x, In x (p_descs s) -> 0 <= d_corr x < p_next s /\ (d_active x = true -> 0 < d_corr x);
  i_distinct : distinct (p_descs s);
  i_reflects : reflects o (p_descs s);
  i_nodup : NoDup (map fst o);
  i_device : device v s }.

Lemma taken_app c a b : taken c (a ++ b) = taken c a ++ taken c b.
Proof. unfold taken. apply flat_map_app. Qed.
Lemma arrived_app c a b : arrived c (a ++ b) = arrived c a ++ arrived c b.
Proof. unfold arrived. apply flat_map_app. Qed.
Lemma inv_start d f : inv [] [] (CallModel.start d f).
Proof.
  split; cbn.
  - split; [repeat constructor|repeat constructor].
  - lia.
  - intros x H. repeat destruct H as [<- | H]; cbn; try (split; [lia|discriminate]). destruct H.
  - intros x y X Y E N. exfalso. apply N. repeat destruct X as [<- | X]; try reflexivity. destruct X.
  - intros d0 c0. cbn. intuition discriminate.
  - constructor.
  - intros c. cbn. split; [constructor|auto].
Qed.
Lemma inv_tx o v s t : inv o v s -> inv o v (w_tx t s).
Proof. intros [A B C D E F G]. split; assumption. Qed.

(* events that neither say anything about replies nor about descriptors *)
Lemma device_quiet v v' s s' : (forall c, taken c v' = [] /\ arrived c v' = [] /\ ~ In (Discarded c) v') -> p_cache s' = p_cache s -> p_disc s' = p_disc s -> device v s -> device (v ++ v') s'.
Proof.
  intros Q C D I c. destruct (Q c) as (T & A & N). destruct (I c) as (S0 & X). unfold cached in *. rewrite C, D, taken_app, arrived_app, T, A, !app_nil_r.
  split; [exact S0|]. intros ND. apply X. intros J. apply ND. apply in_or_app. left. exact J.
Qed.

Lemma inv_quiet o v v' s n : p_next s <= n -> (forall c, taken c v' = [] /\ arrived c v' = [] /\ ~ In (Discarded c) v') -> inv o v s -> inv o (v ++ v') (w_corr n s).
Proof.
  intros N Q [A B C D E F G]. split; try assumption; cbn; [lia| |].
  - intros x I. destruct (C x I). split; [lia|assumption].
  - apply (device_quiet v v' s); auto.
Qed.

Lemma inv_reserve o v v' s d ds t : (forall c, taken c v' = [] /\ arrived c v' = [] /\ ~ In (Discarded c) v') -> reserve (p_next s) 0 (p_descs s) = (ds, d) -> inv o v s ->
  0 < d /\ ~ In d (map fst o) /\ inv (o ++ [(d, p_next s)]) (v ++ v') (mk_proc ds (p_cache s) (p_disc s) (p_next s + 1) t).
Proof.
  intros Q R [A B C D E F G]. destruct A as [A1 A2]. destruct (reserve_spec _ _ _ _ _ A1 A2 R) as (P & S2 & F2 & I2 & A3).
  assert (N : ~ In d (map fst o)).
  { intros H. apply in_map_iff in H. destruct H as ([d' c] & E1 & I). cbn in E1. subst d'. apply E in I. specialize (A3 _ I eq_refl). discriminate. }
  split; [exact P|]. split; [exact N|]. split; cbn.
  - split; assumption.
  - lia.
  - intros x I. apply I2 in I. destruct I as [[I _] | ->]; [destruct (C x I); split; [lia|assumption]|]. cbn. split; [lia|intros; lia].
  - intros x y X Y EQ NZ. apply I2 in X. apply I2 in Y. destruct X as [[X NX] | ->]; destruct Y as [[Y NY] | ->]; cbn in *.
    + exact (D x y X Y EQ NZ).
    + destruct (C x X) as [[? ?] _]. lia.
    + destruct (C y Y) as [[? ?] _]. lia.
    + reflexivity.
  - intros d0 c0. rewrite in_app_iff, I2, (E d0 c0). cbn [In d_id]. split.
    + intros [H | [H | []]]; [left; split; [exact H|]|right; injection H as <- <-; reflexivity]. intros ->. specialize (A3 _ H eq_refl). discriminate.
    + intros [[H _] | H]; [left; exact H|right; left; injection H as -> ->; reflexivity].
  - rewrite map_app. cbn. apply NoDup_app_one; assumption.
  - apply (device_quiet v v' s); auto.
Qed.

Lemma NoDup_filter_fst (p : Z * Z -> bool) o : NoDup (map fst o) -> NoDup (map fst (filter p o)).
Proof.
  induction o as [|x o IH]; cbn; intros N; [constructor|]. inversion_clear N as [|? ? NI N']. destruct (p x); cbn; [|exact (IH N')].
  constructor; [|exact (IH N')]. intros H. apply NI. apply in_map_iff in H. destruct H as (y & E & I). apply filter_In in I. apply in_map_iff. exists y. tauto.
Qed.
(* the number isn't active any more; p removes exactly what was known with it *)
Lemma inv_unreserve o v s d p : (forall d' c', In (d', c') o -> p (d', c') = negb (d' =? d)) -> inv o v s -> inv (filter p o) v (w_descs (unreserve d (p_descs s)) s).
Proof.
  intros P [A B C D E F G]. pose proof (unreserve_in d (p_descs s) (proj1 A)) as U. split; cbn.
  - apply unreserve_ordered; exact A.
  - exact B.
  - intros x I. apply U in I. destruct I as [[I _] | (y & I & Ey & ->)]; [exact (C x I)|]. cbn. split; [apply C; exact I|discriminate].
  - intros x y X Y EQ NZ. apply U in X. apply U in Y.
    destruct X as [[X NX] | (x' & X & EX & ->)]; destruct Y as [[Y NY] | (y' & Y & EY & ->)]; cbn in *.
    + exact (D x y X Y EQ NZ).
    + rewrite (D x y' X Y EQ NZ) in NX. contradiction.
    + rewrite (D x' y X Y EQ NZ) in EX. contradiction.
    + rewrite EQ. reflexivity.
  - intros d0 c0. rewrite filter_In, U, (E d0 c0). cbn [d_id]. split.
    + intros [H N]. left. split; [exact H|]. apply E in H. rewrite (P _ _ H) in N. intros ->. rewrite Z.eqb_refl in N. discriminate.
    + intros [[H N] | (y & _ & _ & H)]; [|discriminate]. split; [exact H|]. rewrite P; [|apply E; exact H]. destruct (Z.eqb_spec d0 d); [contradiction|reflexivity].
  - apply NoDup_filter_fst; exact F.
  - exact G.
Qed.
Lemma inv_same o o' v s : (forall x, In x o <-> In x o') -> NoDup (map fst o') -> inv o v s -> inv o' v s.
Proof. intros H N [A B C D E F G]. split; try assumption. intros d c. rewrite <- H. apply E. Qed.
Lemma filter_all {A} (p : A -> bool) l : (forall x, In x l -> p x = true) -> filter p l = l.
Proof. induction l as [|x l IH]; cbn; intros H; [reflexivity|]. rewrite (H x (or_introl eq_refl)), IH; [reflexivity|]. intros. apply H. right. assumption. Qed.

Lemma acall_inv e notran noreply l s s' out ev o v : inv o v s -> acall e notran noreply l s = (s', out, ev) -> inv (fold_left after_event ev o) (v ++ ev) s'.
Proof.
  intros I. unfold acall. set (as' := in_transaction s && negb notran).
  assert (Q : forall c x, (forall k, taken k [Lookup c] = [] /\ arrived k [Lookup c] = [] /\ ~ In (Discarded k) [Lookup c]) /\
    (forall d k, taken k [Lookup c; Request c d x] = [] /\ arrived k [Lookup c; Request c d x] = [] /\ ~ In (Discarded k) [Lookup c; Request c d x])).
  { intros c x. split; intros; cbn; (split; [reflexivity|]); (split; [reflexivity|]); intuition discriminate. }
  destruct (as' && noreply) eqn:NR; [intros H; injection H as <- <- <-; cbn; rewrite app_nil_r; exact I|].
  destruct l as [send| | |]; try (intros H; injection H as <- <- <-; cbn; apply inv_quiet; [lia|apply (Q _ 0)|exact I]).
  destruct noreply.
  - destruct send; intros H; injection H as <- <- <-; cbn; apply inv_quiet; try lia; try apply (Q _ 0); exact I.
  - destruct (reserve (p_next s) 0 (p_descs s)) as [ds d] eqn:R. cbn [p_tx w_descs w_corr].
    set (t := if as' then fst (step e (ServiceCall (p_next s)) (p_tx s)) else p_tx s).
    assert (TX : (if as' then w_tx (fst (step e (ServiceCall (p_next s)) (p_tx s))) (w_descs ds (w_corr (p_next s + 1) s)) else w_descs ds (w_corr (p_next s + 1) s)) =
      mk_proc ds (p_cache s) (p_disc s) (p_next s + 1) t) by (unfold t; destruct as'; reflexivity).
    rewrite TX. clear TX. destruct send as [code|]; intros H; injection H as <- <- <-.
    + destruct (inv_reserve o v [Lookup (p_next s)] s d ds t (proj1 (Q _ 0)) R I) as (Pd & Nd & J).
      cbn [fold_left after_event].
      replace o with (filter (fun x : Z * Z => negb (fst x =? d)) (o ++ [(d, p_next s)])).
      * refine (inv_unreserve _ _ (mk_proc ds (p_cache s) (p_disc s) (p_next s + 1) t) d _ _ J). intros; reflexivity.
      * rewrite filter_app. cbn. rewrite Z.eqb_refl. cbn. rewrite app_nil_r. apply filter_all. intros x Ix. destruct (Z.eqb_spec (fst x) d) as [E|]; [|reflexivity]. exfalso. apply Nd. rewrite <- E. apply in_map. exact Ix.
    + set (x := if as' then _ else _).
      destruct (inv_reserve o v [Lookup (p_next s); Request (p_next s) d x] s d ds t (proj2 (Q _ x) d) R I) as (Pd & Nd & J).
      cbn [fold_left after_event]. destruct (Z.eqb_spec d 0); [lia|]. exact J.
Qed.
(* tpacall returns a descriptor that is free *)
Lemma acall_fresh e notran noreply l s s' d ev o v : inv o v s -> acall e notran noreply l s = (s', O_descriptor d, ev) ->
  exists x, ev = [Lookup (p_next s); Request (p_next s) d x] /\ if noreply then d = 0 else 0 < d /\ ~ In d (map fst o).
Proof.
  intros I. unfold acall. set (as' := in_transaction s && negb notran).
  destruct (as' && noreply) eqn:NR; [discriminate|]. destruct l as [send| | |]; try discriminate.
  destruct noreply.
  - destruct send; intros H; [discriminate|]. injection H as _ <- <-. exists 0. auto.
  - destruct (reserve (p_next s) 0 (p_descs s)) as [ds d1] eqn:R. destruct send; intros H; [discriminate|]. injection H as _ <- <-.
    eexists. split; [reflexivity|]. assert (QQ : forall c, taken c [] = [] /\ arrived c [] = [] /\ ~ In (Discarded c) []) by (cbn; tauto).
    destruct (inv_reserve o v [] s d1 ds (p_tx s) QQ R I) as (Pd & Nd & _). auto.
Qed.

Lemma arrive_inv o v s c r : inv o v s -> inv o (v ++ [Arrived c r]) (arrive c r s).
Proof.
  intros [A B C D E F G]. assert (AR : forall k, arrived k [Arrived c r] = if c =? k then [r] else []) by (intros k; cbn; rewrite app_nil_r; reflexivity).
  unfold arrive. destruct (mem c (p_disc s)) eqn:M.
  - apply mem_spec in M. split; try assumption. intros k. destruct (G k) as (S0 & X). rewrite taken_app, arrived_app, AR. cbn [taken flat_map]. rewrite app_nil_r.
    unfold cached in *. cbn [p_cache w_disc p_disc]. split.
    + rewrite <- (app_nil_r (taken k v ++ _)). apply sub_app; [exact S0|]. destruct (c =? k); [apply sub_nil_l|constructor].
    + intros ND. assert (ND' : ~ In (Discarded k) v) by (intros J; apply ND; apply in_or_app; left; exact J). destruct (X ND') as (X1 & X2). split; [intros J; apply X1; exact (erase_in _ _ _ J)|].
      destruct (Z.eqb_spec c k) as [-> |]; [contradiction|]. rewrite app_nil_r. exact X2.
  - split; try assumption. intros k. destruct (G k) as (S0 & X). rewrite taken_app, arrived_app, AR. cbn [taken flat_map]. rewrite app_nil_r.
    unfold cached in *. cbn [p_cache w_cache p_disc]. rewrite flat_map_app. cbn [flat_map fst snd]. rewrite app_nil_r. split.
    + rewrite app_assoc. apply sub_app; [exact S0|apply sub_refl].
    + intros ND. assert (ND' : ~ In (Discarded k) v) by (intros J; apply ND; apply in_or_app; left; exact J). destruct (X ND') as (X1 & X2). split; [exact X1|]. rewrite app_assoc, X2. reflexivity.
Qed.
Lemma arrivals_inv o l : forall v s, inv o v s -> inv o (v ++ map (fun x => Arrived (fst x) (snd x)) l) (fold_left (fun s x => arrive (fst x) (snd x) s) l s).
Proof.
  induction l as [|x l IH]; intros v s I; cbn; [rewrite app_nil_r; exact I|]. replace (v ++ Arrived (fst x) (snd x) :: map (fun x => Arrived (fst x) (snd x)) l) with ((v ++ [Arrived (fst x) (snd x)]) ++ map (fun x => Arrived (fst x) (snd x)) l) by (rewrite <- app_assoc; reflexivity).
  apply IH. apply arrive_inv. exact I.
Qed.
Lemma discard_inv o v s c : inv o v s -> inv o (v ++ [Discarded c]) (discard c s).
Proof.
  intros [A B C D E F G]. unfold discard. destruct (take (fun x => fst x =? c) (p_cache s)) as [[m l]|] eqn:T.
  - pose proof (take_fst _ _ _ _ T) as Em. destruct m as [c' r]. cbn in Em. subst c'. destruct (take_cached _ _ _ _ T) as (T1 & T2). split; try assumption. intros k. destruct (G k) as (S0 & X).
    rewrite taken_app, arrived_app. cbn [taken arrived flat_map]. rewrite !app_nil_r. unfold cached in *. cbn [p_cache w_cache p_disc]. split.
    + eapply sub_trans; [|exact S0]. apply sub_app; [apply sub_refl|]. destruct (Z.eq_dec k c) as [-> | N]; [rewrite T1; apply sub_skip, sub_refl|rewrite (T2 k N); apply sub_refl].
    + intros ND. assert (ND' : ~ In (Discarded k) v) by (intros J; apply ND; apply in_or_app; left; exact J). assert (N : k <> c) by (intros ->; apply ND; apply in_or_app; right; left; reflexivity).
      destruct (X ND') as (X1 & X2). split; [exact X1|]. rewrite <- (T2 k N). exact X2.
  - assert (K : forall s', p_cache s' = p_cache s -> (forall k, k <> c -> In k (p_disc s') -> In k (p_disc s)) -> device (v ++ [Discarded c]) s').
    { intros s' EC ED k. destruct (G k) as (S0 & X). rewrite taken_app, arrived_app. cbn [taken arrived flat_map]. rewrite !app_nil_r. unfold cached in *. rewrite EC. split; [exact S0|].
      intros ND. assert (ND' : ~ In (Discarded k) v) by (intros J; apply ND; apply in_or_app; left; exact J). assert (N : k <> c) by (intros ->; apply ND; apply in_or_app; right; left; reflexivity).
      destruct (X ND') as (X1 & X2). split; [intros J; apply X1; exact (ED k N J)|exact X2]. }
    destruct (mem c (p_disc s)) eqn:M.
    + split; try assumption. apply K; auto.
    + split; try assumption. apply K; [reflexivity|]. cbn. intros k N J. apply in_app_or in J. destruct J as [J | [J | []]]; [exact J|congruence].
Qed.
Lemma discards_inv o l : forall v s, inv o v s -> inv o (v ++ map Discarded l) (fold_left (fun s c => discard c s) l s).
Proof.
  induction l as [|x l IH]; intros v s I; cbn; [rewrite app_nil_r; exact I|]. replace (v ++ Discarded x :: map Discarded l) with ((v ++ [Discarded x]) ++ map Discarded l) by (rewrite <- app_assoc; reflexivity).
  apply IH. apply discard_inv. exact I.
Qed.

(* a reply is taken *)
Lemma device_took v s c r l : take (fun x => fst x =? c) (p_cache s) = Some ((c, r), l) -> device v s -> device (v ++ [Took c r]) (w_cache l s).
Proof.
  intros T G k. destruct (take_cached _ _ _ _ T) as (T1 & T2). destruct (G k) as (S0 & X). rewrite taken_app, arrived_app. cbn [arrived flat_map]. rewrite app_nil_r.
  assert (Q : (taken k v ++ taken k [Took c r]) ++ cached k (w_cache l s) = taken k v ++ cached k s).
  { unfold cached in *. cbn [p_cache w_cache taken flat_map]. rewrite app_nil_r. destruct (Z.eqb_spec c k) as [<- | N].
    - rewrite T1, <- app_assoc. reflexivity.
    - rewrite (T2 k) by congruence. rewrite app_nil_r. reflexivity. }
  rewrite Q. split; [exact S0|]. intros ND. assert (ND' : ~ In (Discarded k) v) by (intros J; apply ND; apply in_or_app; left; exact J). exact (X ND').
Qed.
Lemma complete_inv e o v s c d r l s' out : inv o v s -> take (fun x => fst x =? c) (p_cache s) = Some ((c, r), l) -> In (mk_desc d true c) (p_descs s) ->
  complete e c d r (w_cache l s) = (s', out) -> inv (fold_left after_event [Took c r] o) (v ++ [Took c r]) s'.
Proof.
  intros I T J H. unfold complete in H. injection H as <- _. cbn [fold_left after_event].
  apply (inv_unreserve o (v ++ [Took c r]) (w_tx _ (w_cache l s)) d).
  - intros d' c' I'. cbn. apply (i_reflects _ _ _ I) in I'. f_equal. pose proof (i_distinct _ _ _ I) as D. pose proof (i_ordered _ _ _ I) as O.
    pose proof (i_corrs _ _ _ I _ J) as [_ P]. specialize (P eq_refl). cbn in P.
    destruct (Z.eqb_spec c' c) as [-> | N]; destruct (Z.eqb_spec d' d) as [-> | N']; try reflexivity.
    + assert (X : mk_desc d' true c = mk_desc d true c) by (apply D; auto; cbn; lia). congruence.
    + assert (X : mk_desc d true c' = mk_desc d true c) by (apply (ordered_inj (p_descs s)); auto). congruence.
  - apply inv_tx. destruct I. split; try assumption. apply device_took; assumption.
Qed.
(* a reply that no call waits for *)
Lemma stray_inv o v s c r l : inv o v s -> take (fun x => fst x =? c) (p_cache s) = Some ((c, r), l) -> (forall d, ~ In (d, c) o) -> inv (fold_left after_event [Took c r] o) (v ++ [Took c r]) (w_cache l s).
Proof.
  intros I T N. cbn [fold_left after_event]. rewrite filter_all.
  - destruct I. split; try assumption. apply device_took; assumption.
  - intros [d' c'] J. cbn. destruct (Z.eqb_spec c' c) as [-> |]; [exfalso; exact (N _ J)|reflexivity].
Qed.
Lemma took_first (s : proc) c r l : p_cache s = (c, r) :: l -> take (fun x => fst x =? c) (p_cache s) = Some ((c, r), l).
Proof. intros ->. cbn. rewrite Z.eqb_refl. reflexivity. Qed.
Lemma get_reply_inv e d any noblock sig s s' out ev o v : inv o v s -> get_reply e d any noblock sig s = (s', out, ev) -> inv (fold_left after_event ev o) (v ++ ev) s'.
Proof.
  intros I. unfold get_reply, nothing. destruct any.
  - destruct (p_cache s) as [|[c r] l] eqn:C; [intros H; injection H as <- <- <-; cbn; rewrite app_nil_r; exact I|]. pose proof (took_first s c r l C) as T. cbn [p_descs w_cache].
    destruct (get_corr c (p_descs s)) as [x|] eqn:G.
    + apply get_corr_some in G. destruct G as (Ix & Ex & Ax). destruct x as [dx ax cx]. cbn in Ex, Ax. subst. destruct (complete e c _ r (w_cache l s)) as [s2 o2] eqn:CO. intros H. injection H as <- <- <-.
      exact (complete_inv e o v s c dx r l s2 o2 I T Ix CO).
    + intros H. injection H as <- <- <-. apply (stray_inv o v s c r l I T). intros d0 J. apply (i_reflects _ _ _ I) in J.
      pose proof (i_corrs _ _ _ I _ J) as [_ P]. specialize (P eq_refl). cbn in P. rewrite (get_corr_in c (p_descs s) _ (i_distinct _ _ _ I) J eq_refl ltac:(lia) eq_refl) in G. discriminate.
  - destruct (get d (p_descs s)) as [x|] eqn:G; [|intros H; injection H as <- <- <-; cbn; rewrite app_nil_r; exact I].
    apply get_some in G. destruct G as (Ix & Ex & Ax). destruct (take (fun m => fst m =? d_corr x) (p_cache s)) as [[[c r] l]|] eqn:T.
    + pose proof (take_fst _ _ _ _ T) as Ec. cbn in Ec. subst c. destruct x as [dx ax cx]. cbn [d_id d_active d_corr] in *. subst. destruct (complete e cx d r (w_cache l s)) as [s2 o2] eqn:CO. intros H. injection H as <- <- <-.
      exact (complete_inv e o v s cx d r l s2 o2 I T Ix CO).
    + intros H; injection H as <- <- <-; cbn; rewrite app_nil_r; exact I.
Qed.
Lemma getrply_inv e d any noblock sig s s' out ev o v : inv o v s -> getrply e d any noblock sig s = (s', out, ev) -> inv (fold_left after_event ev o) (v ++ ev) s'.
Proof. intros I. unfold getrply. destruct (get_reply e d any noblock sig s) as [[s1 o1] ev1] eqn:G. intros H. injection H as <- <- <-. exact (get_reply_inv e d any noblock sig s s1 o1 ev1 o v I G). Qed.
Lemma cancel_inv d s s' out ev o v : inv o v s -> cancel d s = (s', out, ev) -> inv (after_entry o (Tpcancel d, out, ev)) (v ++ ev) s'.
Proof.
  intros I. unfold cancel. destruct (get d (p_descs s)) as [x|] eqn:G; [|intros H; injection H as <- <- <-; cbn; rewrite app_nil_r; exact I].
  destruct (associated (d_corr x) (p_tx s)); [intros H; injection H as <- <- <-; cbn; rewrite app_nil_r; exact I|].
  intros H; injection H as <- <- <-. cbn. apply (inv_unreserve o (v ++ [Discarded (d_corr x)]) (discard (d_corr x) s) d); [reflexivity|]. apply discard_inv. exact I.
Qed.
Lemma fold_events_app a b o : fold_left after_event (a ++ b) o = fold_left after_event b (fold_left after_event a o).
Proof. apply fold_left_app. Qed.
Lemma quiet_events l o : (forall x, In x l -> match x with Request _ _ _ | Took _ _ => False | _ => True end) -> fold_left after_event l o = o.
Proof. revert o. induction l as [|x l IH]; cbn; intros o H; [reflexivity|]. rewrite IH; [|intros; apply H; right; assumption]. specialize (H x (or_introl eq_refl)). destruct x; cbn; tauto. Qed.
Lemma arrivals_quiet l o : fold_left after_event (map (fun x : Z * reply => Arrived (fst x) (snd x)) l) o = o.
Proof. apply quiet_events. intros x H. apply in_map_iff in H. destruct H as (y & <- & _). exact I. Qed.
Lemma discards_quiet l o : fold_left after_event (map Discarded l) o = o.
Proof. apply quiet_events. intros x H. apply in_map_iff in H. destruct H as (y & <- & _). exact I. Qed.
Lemma tpcall_inv e notran l arr s s' out ev o v : inv o v s -> tpcall e notran l arr s = (s', out, ev) -> inv (fold_left after_event ev o) (v ++ ev) s'.
Proof.
  intros I. unfold tpcall. set (su := in_transaction s && negb notran). destruct (if su then sync_suspend e (p_tx s) else (p_tx s, true)) as [t1 ok] eqn:SU.
  destruct ok.
  - destruct (acall e notran false l (w_tx t1 s)) as [[s2 o2] ev2] eqn:AC. pose proof (acall_inv e notran false l _ _ _ _ o v (inv_tx _ _ _ t1 I) AC) as I2.
    assert (K : forall p, p = (match o2 with
      | O_descriptor d =>
          let s3 := fold_left (fun s x => arrive (fst x) (snd x) s) arr s2 in
          let '(s4, o4, ev4) := get_reply e d false false true s3 in
          (s4, o4, map (fun x => Arrived (fst x) (snd x)) arr ++ ev4)
      | _ => (s2, o2, [])
      end) -> inv (fold_left after_event (ev2 ++ snd p) o) (v ++ ev2 ++ snd p) (fst (fst p))).
    { intros p ->. rewrite fold_events_app, app_assoc. destruct o2 as [d|d0 r|d0 r|k| | |r]; try (cbn; rewrite app_nil_r; exact I2).
      cbn zeta. destruct (get_reply e d false false true _) as [[s4 o4] ev4] eqn:G. cbn [fst snd]. rewrite fold_events_app, arrivals_quiet, app_assoc.
      exact (get_reply_inv e d false false true _ _ _ _ _ _ (arrivals_inv _ arr _ _ I2) G). }
    destruct (match o2 with O_descriptor d => _ | _ => _ end) as [[s3 o3] ev3] eqn:M. specialize (K _ eq_refl). cbn [fst snd] in K. intros H. injection H as <- <- <-. destruct su; [apply inv_tx|]; exact K.
  - intros H. injection H as <- <- <-. cbn. rewrite app_nil_r. apply inv_tx. exact I.
Qed.
Lemma step_inv e i s s' out ev o v : inv o v s -> xstep e i s = (s', out, ev) -> inv (after_entry o (i, out, ev)) (v ++ ev) s'.
Proof.
  intros I H. destruct i as [nt nr l|d any nb sg|d|nt l arr|c r|i]; cbn [xstep] in H.
  - exact (acall_inv e nt nr l s s' out ev o v I H).
  - exact (getrply_inv e d any nb sg s s' out ev o v I H).
  - exact (cancel_inv d s s' out ev o v I H).
  - exact (tpcall_inv e nt l arr s s' out ev o v I H).
  - injection H as <- <- <-. exact (arrive_inv o v s c r I).
  - destruct i; cbn [xstep] in H;
      try (match type of H with (let '(_, _) := ?X in _) = _ => destruct X as [tt rr] end; injection H as <- <- <-; cbn [after_entry fold_left]; rewrite app_nil_r; apply inv_tx; exact I);
      try (injection H as <- <- <-; cbn [after_entry fold_left]; rewrite app_nil_r; exact I).
    destruct (step e _ _) as [t r]. injection H as <- <- <-. cbn [after_entry]. rewrite discards_quiet. apply inv_tx. apply discards_inv. exact I.
Qed.

Lemma xrun_app e a b s : xrun e (a ++ b) s = let '(s1, h1) := xrun e a s in let '(s2, h2) := xrun e b s1 in (s2, h1 ++ h2).
Proof.
  revert s. induction a as [|i a IH]; intros s; cbn; [destruct (xrun e b s); reflexivity|]. destruct (xstep e i s) as [[s1 o] ev]. rewrite IH. destruct (xrun e a s1) as [s2 h2]. destruct (xrun e b s2) as [s3 h3]. reflexivity.
Qed.
Lemma run_inv e is : forall s s' h o v, inv o v s -> xrun e is s = (s', h) -> inv (fold_left after_entry h o) (v ++ events h) s'.
Proof.
  induction is as [|i is IH]; intros s s' h o v I H; cbn in H.
  - injection H as <- <-. cbn. rewrite app_nil_r. exact I.
  - destruct (xstep e i s) as [[s1 out] ev] eqn:ST. destruct (xrun e is s1) as [s2 h2] eqn:R. injection H as <- <-. cbn [fold_left events flat_map snd]. rewrite app_assoc. apply (IH s1); [|exact R]. exact (step_inv e i s s1 out ev o v I ST).
Qed.
Lemma reach_inv e dyn fix0 is s h : xrun e is (CallModel.start dyn fix0) = (s, h) -> inv (outstanding h) (events h) s.
Proof. intros R. exact (run_inv e is _ _ _ [] [] (inv_start dyn fix0) R). Qed.
