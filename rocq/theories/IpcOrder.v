(* Discarding a correlation; the order of messages with different keys; datagrams that do not fit. *)
From Coq Require Import ZArith List Bool Arith Lia Permutation.
From Verif Require Import IpcModel IpcSpec IpcChunk IpcProj IpcAcct IpcTop IpcMicro.
Import ListNotations.

(* ---------------------------------------------------------------- discard *)
Definition marked (c : Z) (s : inbound) : Prop := mem c (i_disc s) = true /\ forall x, In x (i_cache s) -> c_corr x = c -> is_complete x = false.

Lemma mem_erase c d l : c <> d -> mem c (erase1 d l) = mem c l.
Proof.
  intros H. induction l as [|x l IH]; [reflexivity|]. cbn [erase1]. destruct (Z.eqb_spec d x) as [->|Hx].
  - unfold mem. cbn [existsb]. rewrite (proj2 (Z.eqb_neq c x) H). reflexivity.
  - unfold mem in *. cbn [existsb]. rewrite IH. reflexivity.
Qed.
Lemma mem_app c a b : mem c (a ++ b) = mem c a || mem c b.
Proof. apply existsb_app. Qed.
Lemma receive_in t l a c b : receive t l = Some (a, c, b) -> forall x, In x (a ++ b) -> In x l.
Proof.
  revert a c b. induction l as [|y l IH]; intros a c b; cbn [receive].
  - destruct (fresh t); [|discriminate]. intros [= <- <- <-] x [].
  - destruct (takes t y); [destruct (add t y); [|discriminate]; intros [= <- <- <-] x Hx; right; exact Hx|].
    destruct (receive t l) as [[[a' c'] b']|]; [|discriminate]. intros [= <- <- <-] x [<-|Hx]; [left; reflexivity|right; eapply IH; eauto].
Qed.

Lemma micro_marked cl c A P r s s' : micro cl A P r s s' -> marked c s -> (forall x, In x P -> m_corr x <> c) ->
  (marked c s' /\ forall m, In m (delivered r) -> m_corr m <> c) \/ exists x, In x (dropped r) /\ m_corr x = c.
Proof.
  intros M (J1 & J2) HP. inversion M; subst; cbn [i_cache i_disc i_wire].
  - left. split; [split; assumption|intros ? []].
  - left. split; [|intros ? []]. split; [assumption|]. cbn [i_cache]. intros x Hx Hc. rewrite in_app_iff in Hx. cbn in Hx.
    assert (In x (a ++ b) \/ x = c0) as [Hx'| ->] by (rewrite in_app_iff; intuition congruence).
    + apply J2; [eapply receive_in; eauto|exact Hc].
    + unfold drop in H1. rewrite Hc, J1 in H1. exact H1.
  - destruct (Z.eq_dec (c_corr c0) c) as [E|E].
    + right. exists (msg_of c0). split; [left; reflexivity|exact E].
    + left. split; [|intros ? []]. split; cbn [i_disc i_cache].
      * rewrite mem_erase by congruence. exact J1.
      * intros x Hx Hc. apply J2; [eapply receive_in; eauto|exact Hc].
  - left. split; [split; assumption|intros ? []].
  - destruct (take_first_spec _ _ _ _ H) as (a & b & E & -> & _). destruct (Z.eq_dec (c_corr c0) c) as [Ec|Ec].
    + rewrite (J2 c0) in H0; [discriminate|rewrite E; apply in_app_iff; right; left; reflexivity|exact Ec].
    + left. split.
      * split; [exact J1|]. cbn [i_cache]. intros y Hy. apply J2. rewrite E. rewrite in_app_iff in *. cbn. tauto.
      * intros m Hm. assert (m = msg_of c0) as ->; [|exact Ec]. destruct H1 as [-> | ->]; cbn in Hm; [destruct Hm as [<-|[]]; reflexivity|destruct Hm].
  - left. split; [split; assumption|intros ? []].
  - left. split; [|intros ? []]. split; [|assumption]. cbn [i_disc]. rewrite mem_app, J1. reflexivity.
  - left. split; [|intros ? []]. split; [assumption|]. cbn [i_cache]. intros x Hx Hc. rewrite in_app_iff in Hx. destruct Hx as [Hx|[<-|[]]]; [apply J2; auto|].
    exfalso. apply (HP m); [left; reflexivity|exact Hc].
  - left. split; [split; assumption|intros ? []].
  - left. split; [split; [assumption|intros ? []]|]. intros m Hm. exfalso. clear - Hm. induction (filter is_complete (i_cache s)); cbn in Hm; auto.
Qed.
Lemma dropped_app a b : dropped (a ++ b) = dropped a ++ dropped b.
Proof. apply flat_map_app. Qed.
Lemma star_marked cl c A P r s s' : star cl A P r s s' -> marked c s -> (forall x, In x P -> m_corr x <> c) ->
  (marked c s' /\ forall m, In m (delivered r) -> m_corr m <> c) \/ exists x, In x (dropped r) /\ m_corr x = c.
Proof.
  induction 1 as [s|A1 P1 r1 A2 P2 r2 s s1 s2 M S IH]; intros J HP; [left; split; [exact J|intros ? []]|].
  destruct (micro_marked _ _ _ _ _ _ _ M J) as [(J1 & N1)|(x & Hx & Hc)]; [intros; apply HP, in_app_iff; auto| |].
  - destruct (IH J1) as [(J2 & N2)|(x & Hx & Hc)]; [intros; apply HP, in_app_iff; auto| |].
    + left. split; [exact J2|]. intros m Hm. rewrite delivered_app, in_app_iff in Hm. destruct Hm; auto.
    + right. exists x. rewrite dropped_app, in_app_iff. auto.
  - right. exists x. rewrite dropped_app, in_app_iff. auto.
Qed.

Lemma consumed_dropped x r : In x (dropped r) -> In x (consumed r).
Proof. unfold dropped, consumed. rewrite !in_flat_map. intros (y & Hy & H). exists y. split; [exact Hy|]. destruct y; cbn in *; tauto. Qed.
Lemma consumed_delivered x r : In x (delivered r) -> In x (consumed r).
Proof. unfold delivered, consumed. rewrite !in_flat_map. intros (y & Hy & H). exists y. split; [exact Hy|]. destruct y; cbn in *; tauto. Qed.
Lemma two_consumed k x y r : In x (dropped r) -> In y (delivered r) -> m_key x = k -> m_key y = k -> 2 <= length (of_key k (consumed r)).
Proof.
  intros Hx Hy Kx Ky. induction r as [|z r IH]; [destruct Hx|].
  assert (G : forall m l, m_key m = k -> In m l -> 1 <= length (of_key k l)).
  { intros m l Km Hm. assert (In m (of_key k l)) by (apply filter_In; split; [exact Hm|unfold m_is; rewrite Km; apply key_eqb_refl]). destruct (of_key k l); [contradiction|cbn; lia]. }
  unfold dropped, delivered, consumed in *. cbn [flat_map app] in *. destruct z as [m|m| |]; cbn [app] in *.
  - destruct Hy as [<-|Hy].
    + unfold of_key. cbn [filter]. unfold m_is at 1. rewrite Ky, key_eqb_refl. cbn [length]. pose proof (G x _ Kx (consumed_dropped _ _ Hx)) as L. unfold of_key, consumed in L. lia.
    + specialize (IH Hx Hy). unfold of_key in *. cbn [filter]. destruct (m_is k m); cbn [length]; lia.
  - destruct Hx as [<-|Hx].
    + unfold of_key. cbn [filter]. unfold m_is at 1. rewrite Kx, key_eqb_refl. cbn [length]. pose proof (G y _ Ky (consumed_delivered _ _ Hy)) as L. unfold of_key, consumed in L. lia.
    + specialize (IH Hx Hy). unfold of_key in *. cbn [filter]. destruct (m_is k m); cbn [length]; lia.
  - auto.
  - auto.
Qed.

Lemma delivered_flush n i : delivered (snd (flush n i)) = [].
Proof.
  revert i. induction n as [|n IH]; intros i; cbn [flush]; [reflexivity|]. destruct (select (Of_type flush_ipc) i) as [i1 r1]. destruct (got r1); cbn [snd]; [|apply delivered_drops].
  specialize (IH i1). destruct (flush n i1) as [i2 r2]. cbn [snd] in *. rewrite delivered_app, delivered_drops, IH. reflexivity.
Qed.
Lemma delivered_discard c i : delivered (snd (discard c i)) = [].
Proof.
  unfold discard. pose proof (delivered_flush batch_flush i) as H. destruct (flush batch_flush i) as [i1 r1]. cbn [snd] in H. destruct (raised r1); [exact H|].
  destruct (List.find _ _) as [x|]; [|exact H]. destruct (is_complete x); [|exact H]. destruct (take_first _ _) as [[y l]|]; [|exact H]. cbn [snd]. rewrite delivered_app, H. reflexivity.
Qed.

Lemma find_head {A} (q : A -> bool) l x : List.find q l = Some x -> exists r, filter q l = x :: r.
Proof. induction l as [|y l IH]; cbn; [discriminate|]. destruct (q y); [intros [= <-]; eauto|exact IH]. Qed.
Lemma find_nil {A} (q : A -> bool) l : List.find q l = None -> forall x, In x l -> q x = false.
Proof. induction l as [|y l IH]; cbn; [intros _ ? []|]. destruct (q y) eqn:E; [discriminate|]. intros H x [<-|Hx]; auto. Qed.

Lemma discard_marks max k F i l : 0 < max -> inv max (i_cache i) (i_wire i ++ F) -> acct true max k (i_cache i) (i_wire i ++ F) l ->
  (forall x, In x (i_cache (fst (flush batch_flush i))) -> c_corr x = snd k -> c_key x = k) ->
  (exists x, In x (dropped (snd (discard (snd k) i))) /\ m_corr x = snd k) \/ marked (snd k) (fst (discard (snd k) i)).
Proof.
  intros Hm Hi A Hkeys. pose proof (flush_moves max F Hm batch_flush i Hi) as (Hr & M). unfold discard.
  destruct (flush batch_flush i) as [i1 r1] eqn:Ef. cbn [fst snd] in *. rewrite (raised_no _ Hr).
  destruct (M true k l (fun _ => eq_refl) A) as (l1 & (ms & p & rest & R & G & El) & _).
  set (mk := mk_in (i_cache i1) (if mem (snd k) (i_disc i1) then i_disc i1 else i_disc i1 ++ [snd k]) (i_wire i1)).
  assert (Hmk : mem (snd k) (i_disc mk) = true).
  { unfold mk. cbn [i_disc]. destruct (mem (snd k) (i_disc i1)) eqn:E; [exact E|]. rewrite mem_app. unfold mem at 2. cbn. rewrite Z.eqb_refl. destruct (mem (snd k) (i_disc i1)); reflexivity. }
  destruct (List.find _ (i_cache i1)) as [x|] eqn:E.
  - destruct (is_complete x) eqn:Ex.
    + left. destruct (find_take _ _ _ E) as (l' & T). rewrite T. cbn [snd]. exists (msg_of x). apply find_some in E. destruct E as [_ E]. apply Z.eqb_eq in E.
      split; [rewrite dropped_app, in_app_iff; right; left; reflexivity|exact E].
    + right. cbn [fst]. split; [exact Hmk|]. cbn [mk i_cache]. intros y Hy Hc.
      assert (Hf : filter (fun c => (c_corr c =? snd k)%Z) (i_cache i1) = proj k (i_cache i1)).
      { unfold proj. apply filter_ext_in. intros c Hc'. unfold c_is. destruct (Z.eqb_spec (c_corr c) (snd k)) as [Ec|Ec].
        - rewrite (Hkeys c Hc' Ec). symmetry. apply key_eqb_refl.
        - symmetry. apply key_eqb_neq. intros ->. apply Ec. reflexivity. }
      destruct (find_head _ _ _ E) as (tl & Eh). rewrite Hf in Eh.
      assert (Hyin : In y (proj k (i_cache i1))) by (rewrite <- Hf; apply filter_In; split; [exact Hy|apply Z.eqb_eq; exact Hc]).
      rewrite Eh in R, Hyin. destruct p as [[m j]|].
      * destruct R as (a & c0 & b & E1 & E2 & _ & _ & Hb). rewrite (Hb eq_refl) in *. rewrite app_nil_r in E2. destruct a as [|z a].
        { cbn in E1. injection E1 as <- ->. destruct Hyin as [<-|[]]. exact Ex. }
        { cbn in E1. injection E1 as <- _. exfalso. pose proof (wholes_are _ _ E2) as W. cbn in W. rewrite Ex in W. discriminate. }
      * cbn [rep] in R. exfalso. pose proof (wholes_are _ _ R) as W. cbn in W. rewrite Ex in W. discriminate.
  - right. cbn [fst]. split; [exact Hmk|]. cbn [mk i_cache]. intros y Hy Hc. pose proof (find_nil _ _ E y Hy) as N. cbn in N. apply Z.eqb_neq in N. contradiction.
Qed.

Lemma made_in A m : made_of A m -> exists t, In t A /\ t_key t = m_key m.
Proof.
  intros (d & ds & H1 & (H2 & _) & _). exists d. split; [|exact H2]. clear H2. remember (d :: ds) as l eqn:E. revert d ds E.
  induction H1 as [|x l1 l2 H IH|x l1 l2 H IH]; intros d ds E; [discriminate| |].
  - injection E as -> ->. left. reflexivity.
  - right. eapply IH, E.
Qed.
Lemma built_in A c : built A c -> exists t, In t A /\ t_key t = c_key c.
Proof.
  intros (d & ds & H1 & (H2 & _) & _). exists d. split; [|exact H2]. clear H2. remember (d :: ds) as l eqn:E. revert d ds E.
  induction H1 as [|x l1 l2 H IH|x l1 l2 H IH]; intros d ds E; [discriminate| |].
  - injection E as -> ->. left. reflexivity.
  - right. eapply IH, E.
Qed.

Theorem discarded_lemma max sent l1 l2 m : let l := l1 ++ Discard (m_corr m) :: l2 in proper max sent l -> sent (m_key m) = [m] ->
  (forall t, In t (arrivals l) -> t_corr t = m_corr m -> t_key t = m_key m) -> (forall x, In x (pushed l) -> m_corr x <> m_corr m) ->
  ~ In m (delivered (snd (run l1 empty))) -> ~ In m (delivered (snd (run l empty))).
Proof.
  intros l P Hsent Hark Hpush Hn Hin. pose proof P as (Hm & Hcl & Hst). set (c := m_corr m) in *. set (k := m_key m) in *.
  assert (Harr : arrivals l = arrivals l1 ++ arrivals l2) by (unfold l, arrivals; rewrite flat_map_app; reflexivity).
  assert (Hpu : pushed l = pushed l1 ++ pushed l2) by (unfold l, pushed; rewrite flat_map_app; reflexivity).
  destruct (run l1 empty) as [s1 r1] eqn:E1. cbn [snd] in Hn.
  destruct (discard c s1) as [s2 r2] eqn:E2. destruct (run l2 s2) as [s3 r3] eqn:E3.
  assert (E : run l empty = (s3, r1 ++ r2 ++ r3)).
  { unfold l. rewrite run_app, E1. cbn [run step]. fold c. rewrite E2, E3. reflexivity. }
  rewrite E in Hin. cbn [snd] in Hin. rewrite !delivered_app in Hin. pose proof (delivered_discard c s1) as Hd2. rewrite E2 in Hd2. cbn [snd] in Hd2. rewrite Hd2 in Hin.
  rewrite in_app_iff in Hin. destruct Hin as [Hin|Hin]; [contradiction|]. cbn [app] in Hin.
  destruct (exactly_once max sent l _ _ k P E) as (rest & Q & _). rewrite Hsent in Q.
  assert (Hpk : of_key k (pushed l) = []).
  { destruct (of_key k (pushed l)) as [|x q] eqn:Eq; [reflexivity|]. assert (Hx : In x (of_key k (pushed l))) by (rewrite Eq; left; reflexivity). apply filter_In in Hx.
    destruct Hx as [Hx Kx]. apply key_eqb_eq in Kx. exfalso. apply (Hpush x Hx). apply (f_equal snd) in Kx. cbn in Kx. symmetry. exact Kx. }
  rewrite Hpk, app_nil_r in Q.
  (* a dropped message of that correlation can only be m *)
  assert (Hno : forall x, In x (dropped (r1 ++ r2 ++ r3)) -> m_corr x = c -> False).
  { intros x Hx Hc. assert (Kx : m_key x = k).
    { pose proof (run_star true l empty (fun _ => eq_refl)) as S. rewrite E in S. destruct (star_origin _ _ _ _ _ _ S [] [] (Forall_nil _)) as (D & _ & _ & G).
      destruct (G x (consumed_dropped _ _ Hx)) as [Gp|Gm]; [exfalso; apply (Hpush x Gp Hc)|]. destruct (made_in _ _ Gm) as (t & Ht & Kt). cbn in Ht.
      rewrite <- Kt. apply Hark; [exact Ht|]. apply (f_equal snd) in Kt. cbn in Kt. congruence. }
    pose proof (two_consumed k x m (r1 ++ r2 ++ r3) Hx) as L. assert (In m (delivered (r1 ++ r2 ++ r3))) by (rewrite !delivered_app, !in_app_iff; auto).
    specialize (L H Kx eq_refl). apply Permutation_length in Q. rewrite app_length in Q. cbn in Q. lia. }
  (* the state after l1 *)
  assert (Hfut : moves max [] (arrivals l) (pushed l1) r1 (i_cache s1) (i_wire s1 ++ arrivals l2) (by_key l1)).
  { pose proof (run_moves max (arrivals l2) Hm l1 empty) as R. cbn [empty i_cache i_wire app] in R. rewrite E1 in R. cbn [fst snd] in R. rewrite Harr. apply R.
    - intros H. apply Hcl. unfold l. rewrite in_app_iff. auto.
    - rewrite <- Harr. intros k'. exists (sent k'). apply start_acct. exact P. }
  assert (Hinv : inv max (i_cache s1) (i_wire s1 ++ arrivals l2)).
  { eapply inv_moves; [|exact Hfut]. intros k'. exists (sent k'). apply start_acct. exact P. }
  assert (Hacct : exists la, acct true max k (i_cache s1) (i_wire s1 ++ arrivals l2) la).
  { destruct Hfut as (_ & Hf). destruct (Hf true k (sent k)) as (la & Ha & _); [|apply start_acct; exact P|eauto].
    intros _. rewrite Hpu, of_key_app in Hpk. apply app_eq_nil in Hpk. tauto. }
  destruct Hacct as (la & Hacct).
  assert (Hkeys : forall x, In x (i_cache (fst (flush batch_flush s1))) -> c_corr x = snd k -> c_key x = k).
  { intros x Hx Hc. pose proof (run_star true l1 empty (fun _ => eq_refl)) as S1. rewrite E1 in S1. cbn [fst snd] in S1.
    pose proof (star_app _ _ _ _ _ _ _ _ _ _ S1 (flush_star true batch_flush s1)) as S2. destruct (star_origin _ _ _ _ _ _ S2 [] [] (Forall_nil _)) as (D & ED & FD & _).
    rewrite Forall_forall in FD. destruct (FD x Hx) as [[_ Hp]|Hb].
    - exfalso. rewrite app_nil_r in Hp. cbn in Hp. apply (Hpush (msg_of x)); [rewrite Hpu; apply in_app_iff; auto|exact Hc].
    - destruct (built_in _ _ Hb) as (t & Ht & Kt). rewrite <- Kt. apply Hark; [|apply (f_equal snd) in Kt; cbn in Kt; rewrite Hc in Kt; exact Kt].
      rewrite Harr. apply in_app_iff. left. cbn [app empty i_wire] in ED. rewrite app_nil_r in ED. rewrite <- ED. apply in_app_iff. auto. }
  destruct (discard_marks max k (arrivals l2) s1 la Hm Hinv Hacct Hkeys) as [(x & Hx & Hc)|J]; change (snd k) with c in *.
  - rewrite E2 in Hx. cbn [snd] in Hx. apply (Hno x); [rewrite !dropped_app, !in_app_iff; auto|exact Hc].
  - rewrite E2 in J. cbn [fst] in J. pose proof (run_star true l2 s2 (fun _ => eq_refl)) as S. rewrite E3 in S. cbn [fst snd] in S.
    destruct (star_marked _ c _ _ _ _ _ S J) as [(_ & N)|(x & Hx & Hc)].
    + intros x Hx. apply Hpush. rewrite Hpu. apply in_app_iff. auto.
    + apply (N m Hin). reflexivity.
    + apply (Hno x); [rewrite !dropped_app, !in_app_iff; auto|exact Hc].
Qed.

(* ---------------------------------------------------------------- order between keys *)
Lemma micro_acct max A P r s s' F : 0 < max -> micro false A P r s s' -> inv max (i_cache s) (i_wire s ++ A ++ F) -> forall k l, acct false max k (i_cache s) (i_wire s ++ A ++ F) l ->
  exists l', acct false max k (i_cache s') (i_wire s' ++ F) l' /\ (of_key k P = [] -> Permutation l (of_key k (consumed r) ++ l')).
Proof.
  intros Hm M Hi k l Ha. inversion M; subst; cbn [i_cache i_disc i_wire app] in *; try match goal with W : i_wire s = _ |- _ => rewrite W in *; cbn [app] in * end.
  - exists l. rewrite <- app_assoc. split; [exact Ha|]. intros _. apply Permutation_refl.
  - destruct (recv_one max t (w ++ F) (i_cache s) Hm Hi) as (a' & c' & b' & E & K1 & _). rewrite H0 in E. injection E as <- <- <-.
    destruct (K1 false k l Ha) as (l' & X & Y & _). exists l'. split; [exact X|]. intros _. exact Y.
  - destruct (recv_one max t (w ++ F) (i_cache s) Hm Hi) as (a' & c' & b' & E & _ & K2). rewrite H0 in E. injection E as <- <- <-.
    unfold drop in H1. apply andb_true_iff in H1. destruct (K2 (proj2 H1) false k l Ha) as (l' & X & Y & _). exists l'. split; [exact X|]. intros _. exact Y.
  - exfalso. destruct (recv_one max t (w ++ F) (i_cache s) Hm Hi) as (a' & c' & b' & E & _). congruence.
  - destruct (take_one max p (i_cache s) c l0 false k _ l H H0 Ha) as (l' & X & Y & _). exists l'. split; [exact X|]. intros _.
    destruct H1 as [-> | ->]; exact Y.
  - exists l. split; [exact Ha|]. intros _. apply Permutation_refl.
  - exists l. split; [exact Ha|]. intros _. apply Permutation_refl.
  - destruct Ha as (ms & p & rest & R & G & ->). rewrite of_key_one. unfold acct. rewrite proj_app, proj_one. unfold c_is. change (c_key (whole m)) with (m_key m).
    fold (m_is k m). destruct (m_is k m) eqn:Ek.
    + exists ((ms ++ [m]) ++ rest). split; [|discriminate]. exists (ms ++ [m]), p, rest. split; [|auto]. destruct p as [[m' j]|].
      * destruct R as (a & c & b & E1 & E2 & E3 & E4 & _). exists a, c, (b ++ [whole m]). rewrite E1, <- app_assoc. split; [reflexivity|].
        rewrite app_assoc, E2, map_app. split; [reflexivity|]. split; [exact E3|]. split; [exact E4|discriminate].
      * cbn [rep] in *. rewrite R, map_app. reflexivity.
    + exists (ms ++ rest). split; [|intros _; apply Permutation_refl]. exists ms, p, rest. rewrite app_nil_r. auto.
  - exists l. split; [exact Ha|]. intros _. apply Permutation_refl.
  - discriminate.
Qed.

Definition before (k1 k2 : key) (W : list transport) : Prop := exists X Y, W = X ++ Y /\ filter (t_is k2) X = [] /\ filter (t_is k1) Y = [].
Definition behind (m1 : msg) (k2 : key) (cache : list complete) : Prop :=
  (forall x, In x cache -> c_key x <> k2) \/ exists c1 c2, cache = c1 ++ whole m1 :: c2 /\ forall x, In x c1 -> c_key x <> k2.

Lemma before_tail k1 k2 t W : before k1 k2 (t :: W) -> before k1 k2 W.
Proof.
  intros (X & Y & E & HX & HY). destruct X as [|x X].
  - cbn in E. subst Y. exists [], W. split; [reflexivity|]. split; [reflexivity|]. cbn in HY. destruct (t_is k1 t); [discriminate|exact HY].
  - cbn in E. injection E as <- ->. exists X, Y. split; [reflexivity|]. split; [|exact HY]. cbn in HX. destruct (t_is k2 t); [discriminate|exact HX].
Qed.
Lemma before_start k1 k2 t W : before k1 k2 (t :: W) -> t_key t = k2 -> filter (t_is k1) (t :: W) = [].
Proof.
  intros (X & Y & E & HX & HY) Hk. destruct X as [|x X]; [cbn in E; subst Y; exact HY|]. cbn in E. injection E as <- ->. exfalso. cbn in HX. unfold t_is in HX. rewrite Hk, key_eqb_refl in HX. discriminate.
Qed.

(* a complete message stays where it is when a datagram comes in *)
Lemma receive_around t w c1 c2 a c b : is_complete w = true -> receive t (c1 ++ w :: c2) = Some (a, c, b) ->
  (exists c1' c2', a ++ c :: b = c1' ++ w :: c2' /\ (forall x, In x c1' -> exists y, In y c1 /\ c_key x = c_key y)) /\
  (exists c1' c2', a ++ b = c1' ++ w :: c2' /\ (forall x, In x c1' -> exists y, In y c1 /\ c_key x = c_key y)).
Proof.
  intros Hw. revert a c b. induction c1 as [|z c1 IH]; intros a c b; cbn [app receive].
  - unfold takes. rewrite Hw. cbn [negb andb]. destruct (receive t c2) as [[[a' c'] b']|]; [|discriminate]. intros [= <- <- <-].
    split; [exists [], (a' ++ c' :: b')|exists [], (a' ++ b')]; (split; [reflexivity|intros ? []]).
  - destruct (takes t z).
    + destruct (add t z) as [z'|] eqn:Ea; [|discriminate]. intros [= <- <- <-]. split; [exists (z' :: c1), c2|exists c1, c2]; (split; [reflexivity|]).
      * intros x [<-|Hx]; [exists z; split; [left; reflexivity|apply add_key in Ea; exact Ea]|exists x; split; [right; exact Hx|reflexivity]].
      * intros x Hx. exists x. split; [right; exact Hx|reflexivity].
    + destruct (receive t (c1 ++ w :: c2)) as [[[a' c'] b']|]; [|discriminate]. intros [= <- <- <-]. destruct (IH _ _ _ eq_refl) as [(p1 & p2 & E1 & K1) (q1 & q2 & E2 & K2)].
      split; [exists (z :: p1), p2|exists (z :: q1), q2]; cbn [app]; (split; [congruence|]); intros x [<-|Hx];
        try (exists z; split; [left; reflexivity|reflexivity]); [destruct (K1 x Hx) as (y & Hy & Ey)|destruct (K2 x Hx) as (y & Hy & Ey)]; exists y; (split; [right; exact Hy|exact Ey]).
Qed.
Lemma receive_fresh_end t l a c b : (forall x, In x l -> c_key x <> t_key t) -> receive t l = Some (a, c, b) -> a = l /\ b = [].
Proof.
  revert a c b. induction l as [|x l IH]; intros a c b H; cbn [receive].
  - destruct (fresh t); [|discriminate]. intros [= <- <- <-]. auto.
  - rewrite (takes_other t x (t_key t) eq_refl (H x (or_introl eq_refl))). destruct (receive t l) as [[[a' c'] b']|]; [|discriminate]. intros [= <- <- <-].
    destruct (IH _ _ _ (fun y Hy => H y (or_intror Hy)) eq_refl) as [-> ->]. auto.
Qed.

Lemma acct_done max k cache W m : 0 < max -> acct false max k cache W [m] -> filter (t_is k) W = [] -> exists c1 c2, cache = c1 ++ whole m :: c2.
Proof.
  intros Hm (ms & p & rest & R & F & E) Hw. rewrite Hw in F. assert (Hr : rest = []).
  { destruct p as [[m' j]|].
    - destruct F as (_ & [(t1 & t2 & rest' & Et & _ & T & _)|(-> & _)]); [|reflexivity]. symmetry in Et. apply app_eq_nil in Et. destruct Et as [-> _].
      destruct R as (a & c & b & _ & _ & _ & Hj & _). exfalso. eapply transmits_nonempty; [|exact T]. lia.
    - cbn in F. eapply stream_empty; eauto. }
  subst rest. rewrite app_nil_r in E. subst ms. apply in_split.
  assert (Hin : In (whole m) (proj k cache)); [|unfold proj in Hin; apply filter_In in Hin; tauto].
  destruct p as [[m' j]|].
  - destruct R as (a & c & b & E1 & E2 & _). rewrite E1. assert (In (whole m) (a ++ b)) by (rewrite E2; left; reflexivity). rewrite in_app_iff in *. cbn. tauto.
  - cbn [rep] in R. rewrite R. left. reflexivity.
Qed.

Lemma micro_behind max m1 k2 A P r s s' F : 0 < max -> m_key m1 <> k2 -> micro false A P r s s' -> inv max (i_cache s) (i_wire s ++ A ++ F) ->
  acct false max (m_key m1) (i_cache s) (i_wire s ++ A ++ F) [m1] -> before (m_key m1) k2 (i_wire s ++ A ++ F) -> of_key k2 P = [] ->
  behind m1 k2 (i_cache s) -> In m1 (consumed r) \/ behind m1 k2 (i_cache s').
Proof.
  intros Hm Hne M Hi Ha Hb HP B. inversion M; subst; cbn [i_cache i_disc i_wire app consumed flat_map] in *; try match goal with W : i_wire s = _ |- _ => rewrite W in *; cbn [app] in * end; try (right; exact B).
  - right. destruct B as [B|(c1 & c2 & E & B)].
    + destruct (key_dec (t_key t) k2) as [Hk|Hk].
      * pose proof (before_start _ _ _ _ Hb Hk) as Hf. destruct (acct_done max _ _ _ _ Hm Ha Hf) as (c1 & c2 & E). rewrite <- Hk in B. destruct (receive_fresh_end _ _ _ _ _ B H0) as [-> ->].
        right. exists c1, (c2 ++ [c]). rewrite E, <- app_assoc. split; [reflexivity|]. intros x Hx. rewrite <- Hk. apply B. rewrite E. apply in_app_iff. auto.
      * left. intros x Hx. rewrite in_app_iff in Hx. cbn in Hx. assert (In x (a ++ b) \/ x = c) as [Hx'| ->] by (rewrite in_app_iff; intuition congruence).
        { apply B. eapply receive_in; eauto. }
        { rewrite (receive_key _ _ _ _ _ H0). exact Hk. }
    + rewrite E in H0. destruct (receive_around _ _ _ _ _ _ _ (whole_complete m1) H0) as [(p1 & p2 & E' & K) _]. right. exists p1, p2. split; [exact E'|].
      intros x Hx. destruct (K x Hx) as (y & Hy & ->). apply B, Hy.
  - right. destruct B as [B|(c1 & c2 & E & B)].
    + left. intros x Hx. apply B. eapply receive_in; eauto.
    + rewrite E in H0. destruct (receive_around _ _ _ _ _ _ _ (whole_complete m1) H0) as [_ (p1 & p2 & E' & K)]. right. exists p1, p2. split; [exact E'|].
      intros x Hx. destruct (K x Hx) as (y & Hy & ->). apply B, Hy.
  - destruct (take_first_spec _ _ _ _ H) as (a & b & Ec & -> & _). destruct B as [B|(c1 & c2 & E & B)].
    + right. left. intros y Hy. apply B. rewrite Ec. rewrite in_app_iff in *. cbn. tauto.
    + assert (Dec : c = whole m1 \/ c <> whole m1).
      { destruct (key_dec (c_key c) (m_key m1)) as [Hk|Hk]; [|right; intros ->; apply Hk; reflexivity].
        assert (D : {c_payload c = m_payload m1} + {c_payload c <> m_payload m1}) by (apply list_eq_dec, N.eq_dec).
        destruct D as [D|D]; [left|right; intros ->; apply D; reflexivity]. rewrite <- (whole_of c H0). f_equal. unfold msg_of. destruct m1. cbn in *. unfold c_key, m_key in Hk. cbn in Hk. injection Hk as -> ->. congruence. }
      destruct Dec as [-> |Hc].
      * left. destruct H1 as [-> | ->]; cbn; left; apply whole_msg.
      * right. right. rewrite Ec in E. destruct (two_places c (whole m1) a b c1 c2 E Hc) as [(z & -> & ->)|(z & -> & ->)].
        { exists (a ++ z), c2. rewrite <- app_assoc. split; [reflexivity|]. intros y Hy. apply B. rewrite in_app_iff in *. cbn. tauto. }
        { exists c1, (z ++ b). rewrite <- app_assoc. split; [reflexivity|]. exact B. }
  - right. assert (Hk : m_key m <> k2).
    { rewrite of_key_one in HP. unfold m_is in HP. destruct (key_eqb k2 (m_key m)) eqn:Ek; [discriminate|]. apply key_eqb_neq in Ek. congruence. }
    destruct B as [B|(c1 & c2 & E & B)].
    + left. intros x Hx. rewrite in_app_iff in Hx. destruct Hx as [Hx|[<-|[]]]; [apply B, Hx|exact Hk].
    + right. exists c1, (c2 ++ [whole m]). rewrite E, <- app_assoc. split; [reflexivity|exact B].
  - discriminate.
Qed.

Lemma perm_one_split {A} (x : A) a b : Permutation [x] (a ++ b) -> In x a \/ (a = [] /\ b = [x]).
Proof.
  intros H. destruct a as [|y a]; [right; split; [reflexivity|]; cbn in H; apply Permutation_length_1_inv in H; exact H|left].
  apply Permutation_sym in H. cbn in H. apply (Permutation_in y) in H; [|left; reflexivity]. destruct H as [->|[]]. left. reflexivity.
Qed.

Lemma star_behind max m1 k2 A P r s s' : 0 < max -> m_key m1 <> k2 -> star false A P r s s' -> forall F, inv max (i_cache s) (i_wire s ++ A ++ F) ->
  acct false max (m_key m1) (i_cache s) (i_wire s ++ A ++ F) [m1] -> before (m_key m1) k2 (i_wire s ++ A ++ F) -> of_key k2 P = [] -> of_key (m_key m1) P = [] ->
  behind m1 k2 (i_cache s) -> In m1 (consumed r) \/ behind m1 k2 (i_cache s').
Proof.
  intros Hm Hne. induction 1 as [s|A1 P1 r1 A2 P2 r2 s s1 s2 M S IH]; intros F Hi Ha Hb HP2 HP1 B; [right; exact B|].
  rewrite <- app_assoc in *. rewrite of_key_app in HP1, HP2. apply app_eq_nil in HP1, HP2. destruct HP1 as [HP1 HP1'], HP2 as [HP2 HP2'].
  destruct (micro_behind max m1 k2 A1 P1 r1 s s1 (A2 ++ F) Hm Hne M Hi Ha Hb HP2 B) as [Hc|B1]; [left; rewrite consumed_app, in_app_iff; auto|].
  destruct (micro_acct max A1 P1 r1 s s1 (A2 ++ F) Hm M Hi _ _ Ha) as (l' & Ha' & Q). specialize (Q HP1).
  destruct (perm_one_split _ _ _ Q) as [Hin|[_ ->]].
  { left. unfold of_key in Hin. apply filter_In in Hin. rewrite consumed_app, in_app_iff. tauto. }
  assert (Hi' : inv max (i_cache s1) (i_wire s1 ++ A2 ++ F)).
  { intros k. destruct (Hi k) as (lk & Hk). destruct (micro_acct max A1 P1 r1 s s1 (A2 ++ F) Hm M Hi _ _ Hk) as (lk' & Hk' & _). eauto. }
  assert (Hb' : before (m_key m1) k2 (i_wire s1 ++ A2 ++ F)).
  { inversion M; subst; cbn [i_wire app] in *; try exact Hb; try match goal with W : i_wire s = _ |- _ => rewrite W in Hb; cbn [app] in Hb; apply before_tail in Hb; exact Hb end.
    rewrite <- app_assoc. exact Hb. }
  destruct (IH F Hi' Ha' Hb' HP2' HP1' B1) as [Hc|B2]; [left; rewrite consumed_app, in_app_iff; auto|right; exact B2].
Qed.

Lemma find_last p : (forall x, p x = true -> is_complete x = true) -> forall wire cache disc s r m, find p wire cache disc = (s, r ++ [Got m]) ->
  exists s0 c, star false [] [] r (mk_in cache disc wire) s0 /\ take_first p (i_cache s0) = Some (c, i_cache s) /\ msg_of c = m.
Proof.
  intros Hp.
  assert (Hone : forall (x : report) r m, [x] = r ++ [Got m] -> r = [] /\ x = Got m).
  { intros x r m E. destruct r as [|y r]; [injection E as ->; auto|]. cbn in E. injection E as _ E. destruct r; discriminate. }
  induction wire as [|t wire IH]; intros cache disc s r m; cbn [find].
  - destruct (take_first p cache) as [[c l]|] eqn:T; intros E; injection E as <- Er; apply Hone in Er; destruct Er as [-> Er]; [|discriminate]. injection Er as <-.
    exists (mk_in cache disc []), c. split; [constructor|]. auto.
  - destruct (take_first p cache) as [[c l]|] eqn:T.
    + intros E; injection E as <- Er; apply Hone in Er; destruct Er as [-> Er]. injection Er as <-. exists (mk_in cache disc (t :: wire)), c. split; [constructor|]. auto.
    + destruct (receive t cache) as [[[a c] b]|] eqn:E.
      * destruct (drop c disc) eqn:D.
        { destruct (find p wire (a ++ b) (erase1 (c_corr c) disc)) as [s' r'] eqn:F. intros Eq. injection Eq as <- Er. destruct r as [|y r]; cbn in Er; [discriminate|]. injection Er as <- ->.
          destruct (IH _ _ _ _ _ F) as (s0 & c' & S & T' & Em). exists s0, c'. split; [|auto].
          apply (sr_step false [] [] [Dropped (msg_of c)] [] [] r _ _ _ (mi_drop false t wire a c b (mk_in cache disc (t :: wire)) eq_refl E D) S). }
        { intros Eq. destruct (IH _ _ _ _ _ Eq) as (s0 & c' & S & T' & Em). exists s0, c'. split; [|auto].
          apply (sr_step false [] [] [] [] [] r _ _ _ (mi_keep false t wire a c b (mk_in cache disc (t :: wire)) eq_refl E D) S). }
      * intros Eq; injection Eq as <- Er; apply Hone in Er; destruct Er as [_ Er]. discriminate.
Qed.

Theorem no_overtaking max sent l sl s1 r1 s r2 m1 m2 A B : proper max sent (l ++ [Next sl]) -> sent (m_key m1) = [m1] -> m_key m1 <> m_key m2 ->
  arrivals l = A ++ B -> filter (t_is (m_key m2)) A = [] -> filter (t_is (m_key m1)) B = [] ->
  of_key (m_key m1) (pushed l) = [] -> of_key (m_key m2) (pushed l) = [] ->
  run l empty = (s1, r1) -> step (Next sl) s1 = (s, r2 ++ [Got m2]) -> selects sl m1 = true -> In m1 (consumed (r1 ++ r2)).
Proof.
  intros P Hs Hne Hab HA HB Hp1 Hp2 E1 E2 Hsel. pose proof P as (Hm & Hcl & _). cbn [step] in E2. unfold select in E2.
  destruct (find_last _ (fun x H => proj1 (proj1 (andb_true_iff _ _) H)) _ _ _ _ _ _ E2) as (s0 & c & S & T & Ec).
  assert (S1 : star false (arrivals l) (pushed l) r1 empty s1).
  { pose proof (run_star false l empty) as X. rewrite E1 in X. apply X. intros H. exfalso. apply Hcl, in_app_iff. auto. }
  replace (mk_in (i_cache s1) (i_disc s1) (i_wire s1)) with s1 in S by (destruct s1; reflexivity).
  pose proof (star_app _ _ _ _ _ _ _ _ _ _ S1 S) as S2. rewrite !app_nil_r in S2.
  assert (Harr : arrivals (l ++ [Next sl]) = arrivals l) by (unfold arrivals; rewrite flat_map_app; cbn; apply app_nil_r).
  destruct (star_behind max m1 (m_key m2) _ _ _ _ _ Hm Hne S2 []) as [H|H]; cbn [empty i_cache i_wire app]; rewrite ?app_nil_r; auto.
  - intros k. exists (sent k). rewrite <- Harr. apply start_acct. exact P.
  - rewrite <- Hs, <- Harr. apply start_acct. exact P.
  - exists A, B. auto.
  - left. intros x [].
  - destruct (take_first_spec _ _ _ _ T) as (a & b & E & _ & Hp & Hn). exfalso. assert (Kc : c_key c = m_key m2) by (rewrite <- Ec; reflexivity). destruct H as [H|(c1 & c2 & E' & H)].
    + apply (H c); [rewrite E; apply in_app_iff; right; left; reflexivity|exact Kc].
    + rewrite E in E'. destruct (two_places c (whole m1) a b c1 c2 E') as [(z & -> & _)|(z & -> & _)].
      * intros ->. apply Hne. exact Kc.
      * apply (H c); [apply in_app_iff; right; left; reflexivity|exact Kc].
      * specialize (Hn (whole m1)). cbv beta in Hn. rewrite whole_complete, whole_msg, Hsel in Hn. enough (true && true = false) by discriminate. apply Hn. apply in_app_iff. right. left. reflexivity.
Qed.

(* ---------------------------------------------------------------- datagrams that do not fit *)
Lemma receive_unfinished t l : receive t l = None <->
  match List.find (fun c => negb (is_complete c) && key_eqb (t_key t) (c_type c, c_corr c)) l with Some c => add t c = None | None => fresh t = None end.
Proof.
  induction l as [|x l IH]; cbn [receive List.find]; [destruct (fresh t); split; congruence|].
  replace (takes t x) with (negb (is_complete x) && key_eqb (t_key t) (c_type x, c_corr x)) by (unfold takes, key_eqb, t_key; cbn; rewrite andb_assoc; reflexivity).
  destruct (negb (is_complete x) && key_eqb (t_key t) (c_type x, c_corr x)); [destruct (add t x); split; congruence|].
  destruct (receive t l) as [[[a c] b]|]; [|tauto]. split; [discriminate|]. intros H. apply IH in H. discriminate.
Qed.
Lemma select_reject sl i t w : i_wire i = t :: w -> (forall m, In m (ready i) -> selects sl m = false) -> receive t (i_cache i) = None ->
  select sl i = (mk_in (i_cache i) (i_disc i) w, [Raised]).
Proof.
  intros Hw Hr H. unfold select. rewrite Hw. cbn [find]. assert (T : take_first (fun c => is_complete c && selects sl (msg_of c)) (i_cache i) = None).
  { apply take_first_none. intros x Hx. destruct (is_complete x) eqn:E; [|reflexivity]. cbn. apply Hr. unfold ready. apply in_map, filter_In. auto. }
  rewrite T, H. reflexivity.
Qed.

(* ---------------------------------------------------------------- the datagrams of one message *)
Lemma parts_data max m : 0 < max -> forall fuel off rest, length rest < fuel -> flat_map t_data (parts fuel max m off rest) = rest /\
  (forall t, In t (parts fuel max m off rest) -> t_key t = m_key m /\ t_size t = length (m_payload m) /\ length (t_data t) <= max) /\
  back_to_back (m_key m) off (parts fuel max m off rest).
Proof.
  intros Hm. induction fuel as [|f IH]; intros off rest Hf; [lia|]. cbn [parts].
  set (n := if max <? length rest then max else length rest).
  assert (Hn : n <= max /\ n <= length rest /\ (rest <> [] -> 0 < n)).
  { unfold n. destruct (Nat.ltb_spec max (length rest)); destruct rest; cbn [length] in *; repeat split; try lia; intros; try lia; contradiction. }
  assert (Hl : length (firstn n rest) = n) by (rewrite firstn_length; lia).
  destruct (skipn n rest) as [|x more] eqn:E.
  - assert (rest = firstn n rest) as Hr by (rewrite <- (firstn_skipn n rest) at 1; rewrite E, app_nil_r; reflexivity).
    cbn [flat_map t_data]. rewrite app_nil_r, <- Hr. split; [reflexivity|]. split.
    + intros t [<-|[]]. cbn. rewrite Hr, Hl. split; [reflexivity|]. split; [reflexivity|lia].
    + cbn. auto.
  - assert (Hmore : length (x :: more) < f).
    { assert (length (skipn n rest) = length rest - n) by apply skipn_length. rewrite E in H. destruct rest; [rewrite skipn_nil in E; discriminate|]. cbn [length] in *. destruct Hn as (_ & _ & Hn). specialize (Hn ltac:(discriminate)). lia. }
    destruct (IH (off + n) (x :: more) Hmore) as (I1 & I2 & I3). cbn [flat_map t_data]. rewrite I1. split; [rewrite <- E; apply firstn_skipn|]. split.
    + intros t [<-|Ht]; [|apply I2, Ht]. cbn. rewrite Hl. split; [reflexivity|]. split; [reflexivity|lia].
    + cbn [back_to_back t_key t_type t_corr t_offset t_data]. rewrite Hl. split; [reflexivity|]. split; [reflexivity|exact I3].
Qed.
Lemma datagrams_data max m : 0 < max -> datagrams max m <> [] /\ flat_map t_data (datagrams max m) = m_payload m /\
  (forall t, In t (datagrams max m) -> t_key t = m_key m /\ t_size t = length (m_payload m) /\ length (t_data t) <= max) /\
  back_to_back (m_key m) 0 (datagrams max m).
Proof. intros H. split; [discriminate|]. apply parts_data; [exact H|lia]. Qed.

(* the datagram starts a message, and does not fit *)
Lemma reject_lemma sl i t : i_wire i = [] -> (forall m, In m (ready i) -> selects sl m = false) ->
  match unfinished (t_key t) i with
  | Some c => c_offset c < t_offset t \/ (t_offset t = c_offset c /\ length (c_payload c) < t_offset t + length (t_data t))
  | None => 0 < t_offset t \/ t_size t < length (t_data t)
  end -> run [Arrive t; Next sl] i = (i, [Raised]).
Proof.
  intros Hw Hr H. cbn [run step]. rewrite Hw. cbn [app].
  rewrite (select_reject sl (mk_in (i_cache i) (i_disc i) [t]) t []); [cbn; rewrite <- Hw; destruct i; reflexivity|reflexivity|exact Hr|].
  cbn [i_cache]. apply receive_unfinished. unfold unfinished in H. destruct (List.find _ _) as [c|].
  - unfold add. destruct (Nat.ltb_spec (t_offset t) (c_offset c)); [lia|]. destruct (Nat.ltb_spec (c_offset c) (t_offset t)); [reflexivity|].
    destruct (Nat.ltb_spec (length (c_payload c)) (t_offset t + length (t_data t))); [reflexivity|lia].
  - unfold fresh, add. cbn [c_offset c_payload]. rewrite repeat_length. destruct (Nat.ltb_spec (t_offset t) 0); [lia|]. destruct (Nat.ltb_spec 0 (t_offset t)); [reflexivity|].
    destruct (Nat.ltb_spec (t_size t) (t_offset t + length (t_data t))); [reflexivity|lia].
Qed.

(* after a rejected datagram the message can still be finished *)
Lemma select_nothing_one max m ts more : 0 < max -> transmits max m 0 (ts ++ more) -> more <> [] -> forall sl s1 r1,
  run (map Arrive ts ++ [Next sl]) empty = (s1, r1) -> r1 = [Nothing] /\ i_wire s1 = [].
Proof.
  intros Hm T Hmore sl s1 r1 E.
  assert (P : proper max (fun _ => []) (map Arrive ts ++ [Next sl])).
  { split; [exact Hm|]. split.
    - rewrite in_app_iff. intros [H|[H|[]]]; [|discriminate]. apply in_map_iff in H. destruct H as (x & H & _). discriminate.
    - intros k. assert (Ea : arrivals (map Arrive ts ++ [Next sl]) = ts).
      { unfold arrivals. rewrite flat_map_app. cbn. rewrite app_nil_r. induction ts as [|x ts IH]; [reflexivity|]. cbn. f_equal. clear - ts. induction ts; cbn; congruence. }
      rewrite Ea. assert (Hk : forall t, In t ts -> t_key t = m_key m).
      { clear - T Hm. assert (forall i l, transmits max m i l -> forall t, In t l -> t_key t = m_key m) as G; [|intros t Ht; eapply G; [exact T|apply in_app_iff; auto]].
        induction 1; intros u Hu; [destruct Hu| |]; (destruct Hu as [<-|Hu]; [eapply datagram_key; eassumption|auto]). }
      destruct (key_dec k (m_key m)) as [->|Hk2].
      + replace (filter (t_is (m_key m)) ts) with ts; [eapply st_part; [reflexivity|exact Hmore|exact T]|]. symmetry. clear - Hk. induction ts as [|x ts IH]; [reflexivity|]. cbn. unfold t_is at 1. rewrite (Hk x (or_introl eq_refl)), key_eqb_refl. f_equal. apply IH. intros; apply Hk; right; assumption.
      + replace (filter (t_is k) ts) with (@nil transport); [constructor|]. symmetry. clear - Hk Hk2. induction ts as [|x ts IH]; [reflexivity|]. cbn. unfold t_is at 1. rewrite (Hk x (or_introl eq_refl)). replace (key_eqb k (m_key m)) with false by (symmetry; apply key_eqb_neq; exact Hk2). apply IH. intros; apply Hk; right; assumption. }
  pose proof (never_raised _ _ _ _ _ P E) as Hno. 
  assert (Hp : pushed (map Arrive ts ++ [Next sl]) = []) by (unfold pushed; rewrite flat_map_app; fold (pushed (map Arrive ts)); rewrite pushed_map; reflexivity).
  assert (Hc : consumed r1 = []).
  { destruct (consumed r1) as [|x q] eqn:Eq; [reflexivity|]. destruct (exactly_once _ _ _ _ _ (m_key x) P E) as (rest & Q & _). rewrite Hp, Eq in Q. unfold of_key in Q. cbn [filter app] in Q. unfold m_is at 1 in Q. rewrite key_eqb_refl in Q. apply Permutation_length in Q. discriminate. }
  rewrite run_app, run_arrive in E. cbn [empty i_cache i_disc i_wire app run step] in E. destruct (select sl (mk_in [] [] ts)) as [s2 r2] eqn:E2. injection E as <- <-. rewrite app_nil_r in *.
  unfold select in E2. cbn [i_wire i_cache i_disc] in E2.
  assert (G : forall p w c d s r, find p w c d = (s, r) -> ~ In Raised r -> consumed r = [] -> r = [Nothing] /\ i_wire s = []).
  { intros p. induction w as [|t w IH]; intros c d s r; cbn [find]; destruct (take_first p c) as [[x l]|]; try (intros [= <- <-] _ H; discriminate).
    - intros [= <- <-] _ _. auto.
    - destruct (receive t c) as [[[a x] b]|]; [|intros [= <- <-] H; exfalso; apply H; left; reflexivity].
      destruct (drop x d).
      + destruct (find p w (a ++ b) (erase1 (c_corr x) d)) as [s' r']. intros [= <- <-] _ H. discriminate.
      + apply IH. }
  eapply G; eauto.
Qed.
Lemma find_resume p : forall w1 w2 c d s, find p w1 c d = (s, [Nothing]) -> find p (w1 ++ w2) c d = find p w2 (i_cache s) (i_disc s).
Proof.
  induction w1 as [|t w1 IH]; intros w2 c d s; cbn [find app].
  - destruct (take_first p c) as [[x l]|] eqn:T; [discriminate|]. intros [= <-]. reflexivity.
  - destruct (take_first p c) as [[x l]|] eqn:T; [discriminate|]. destruct (receive t c) as [[[a x] b]|]; [|discriminate]. destruct (drop x d).
    + destruct (find p w1 (a ++ b) (erase1 (c_corr x) d)) as [s' r']. discriminate.
    + apply IH.
Qed.
Theorem reject_harmless max m ts more sl bad s1 r1 : 0 < max -> transmits max m 0 (ts ++ more) -> more <> [] -> selects sl m = true ->
  run (map Arrive ts ++ [Next sl]) empty = (s1, r1) ->
  match unfinished (t_key bad) s1 with
  | Some c => c_offset c < t_offset bad \/ (t_offset bad = c_offset c /\ length (c_payload c) < t_offset bad + length (t_data bad))
  | None => 0 < t_offset bad \/ t_size bad < length (t_data bad)
  end ->
  snd (run ((map Arrive ts ++ [Next sl]) ++ [Arrive bad; Next sl] ++ map Arrive more ++ [Next sl]) empty) = [Nothing; Raised; Got m].
Proof.
  intros Hm T Hmore Hs E H. destruct (select_nothing_one max m ts more Hm T Hmore sl s1 r1 E) as [-> Hw].
  pose proof (round_trip max m _ sl Hm T Hs) as R. rewrite run_app, run_arrive in R. cbn [empty i_cache i_disc i_wire app run step] in R.
  pose proof E as E'. rewrite run_app, run_arrive in E'. cbn [empty i_cache i_disc i_wire app run step] in E'. destruct (select sl (mk_in [] [] ts)) as [s2 r2] eqn:E2. injection E' as <- Er. rewrite app_nil_r in Er. subst r2.
  unfold select in E2, R. cbn [i_cache i_disc i_wire] in E2, R. pose proof (find_nothing _ _ _ _ s2 [] E2) as [_ Hn].
  assert (Hrej : run [Arrive bad; Next sl] s2 = (s2, [Raised])).
  { apply reject_lemma; [exact Hw| |exact H]. intros x Hx. unfold ready in Hx. apply in_map_iff in Hx. destruct Hx as (c & <- & Hc). apply filter_In in Hc. destruct Hc as [Hc1 Hc2].
    specialize (Hn c Hc1). rewrite Hc2 in Hn. exact Hn. }
  rewrite run_app, E. rewrite run_app, Hrej. rewrite run_app, run_arrive. rewrite Hw. cbn [app run step]. unfold select. cbn [i_cache i_disc i_wire].
  rewrite (find_resume _ _ more _ _ _ E2) in R. destruct (find _ more (i_cache s2) (i_disc s2)) as [s3 r3]. cbn [snd] in *. rewrite app_nil_r in R. subst r3. reflexivity.
Qed.

(* ---------------------------------------------------------------- what was asked for *)
Lemma mem_in x l : mem x l = true <-> In x l.
Proof. unfold mem. rewrite existsb_exists. split; [intros (y & Hy & E); apply Z.eqb_eq in E; congruence|intros H; exists x; split; [exact H|apply Z.eqb_refl]]. Qed.
Lemma selects_wanted s m : selects s m = true <-> wanted s m.
Proof. destruct s; cbn; rewrite ?andb_true_iff, ?mem_in, ?Z.eqb_eq; tauto. Qed.
Lemma find_got p wire : forall cache disc s r m, find p wire cache disc = (s, r) -> In (Got m) r -> exists c, p c = true /\ msg_of c = m.
Proof.
  assert (T : forall cache c l, take_first p cache = Some (c, l) -> p c = true) by (intros cache c l H; destruct (take_first_spec _ _ _ _ H) as (a & b & _ & _ & Hp & _); exact Hp).
  induction wire as [|t wire IH]; intros cache disc s r m; cbn [find]; destruct (take_first p cache) as [[c l]|] eqn:E.
  - intros [= <- <-] [[= <-]|[]]. eauto.
  - intros [= <- <-] [H|[]]. discriminate.
  - intros [= <- <-] [[= <-]|[]]. eauto.
  - destruct (receive t cache) as [[[a c] b]|]; [|intros [= <- <-] [H|[]]; discriminate]. destruct (drop c disc).
    + destruct (find p wire (a ++ b) (erase1 (c_corr c) disc)) as [s' r'] eqn:F. intros [= <- <-] [H|H]; [discriminate|]. eapply IH; eauto.
    + apply IH.
Qed.
Lemma as_requested sl i s r : (step (Next sl) i = (s, r) \/ step (Cached sl) i = (s, r)) -> (forall m, In (Got m) r -> wanted sl m) /\
  (In Nothing r -> forall m, In m (ready s) -> ~ wanted sl m).
Proof.
  intros [H|H]; cbn [step] in H; split.
  - intros m Hm. destruct (find_got _ _ _ _ _ _ _ H Hm) as (c & Hc & <-). apply andb_true_iff in Hc. apply selects_wanted, Hc.
  - intros Hn m Hm Hwt. unfold ready in Hm. apply in_map_iff in Hm. destruct Hm as (c & <- & Hc). apply filter_In in Hc. destruct Hc as [Hc Hcc].
    assert (exists r', r = r' ++ [Nothing]) as (r' & ->).
    { clear - H Hn. unfold select in H. revert s r H Hn. generalize (i_cache i) (i_disc i). induction (i_wire i) as [|t w IH]; intros ch d s r; cbn [find]; destruct (take_first _ ch) as [[c l]|].
      - intros [= <- <-] [Hx|[]]; discriminate.
      - intros [= <- <-] _. exists []. reflexivity.
      - intros [= <- <-] [Hx|[]]; discriminate.
      - destruct (receive t ch) as [[[a c] b]|]; [|intros [= <- <-] [Hx|[]]; discriminate]. destruct (drop c d); [|apply IH].
        destruct (find _ w (a ++ b) (erase1 (c_corr c) d)) as [s' r'] eqn:F. intros [= <- <-] [Hx|Hx]; [discriminate|]. destruct (IH _ _ _ _ F Hx) as (r2 & ->). exists (Dropped (msg_of c) :: r2). reflexivity. }
    destruct (find_nothing _ _ _ _ _ _ H) as [_ Hno]. specialize (Hno c Hc). cbv beta in Hno. rewrite Hcc in Hno. apply selects_wanted in Hwt. cbn in Hno. congruence.
  - unfold cached in H. destruct (take_first _ (i_cache i)) as [[c l]|] eqn:E; injection H as <- <-; intros m [Hm|[]]; [|discriminate]. injection Hm as <-.
    destruct (take_first_spec _ _ _ _ E) as (a & b & _ & _ & Hp & _). cbv beta in Hp. apply andb_true_iff in Hp. apply selects_wanted, Hp.
  - unfold cached in H. destruct (take_first _ (i_cache i)) as [[c l]|] eqn:E; injection H as <- <-; intros [Hm|[]]; [discriminate|]. intros m Hr Hwt. unfold ready in Hr. apply in_map_iff in Hr. destruct Hr as (c & <- & Hc). apply filter_In in Hc. destruct Hc as [Hc Hcc].
    pose proof (proj1 (take_first_none _ _) E c Hc) as Hno. cbv beta in Hno. rewrite Hcc in Hno. apply selects_wanted in Hwt. cbn in Hno. congruence.
Qed.
