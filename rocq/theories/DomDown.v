(* The domain manager: what's left at the shutdown. *)
From Coq Require Import ZArith List Bool Lia Permutation.
From Verif Require Import DomModel DomSpec DomBoot DomFrame DomMarks DomStep DomSeq DomScale DomTalk DomSing DomLook DomGrew DomProc DomPids DomKeep DomOpen.
Import ListNotations.
Local Open Scope Z_scope.

(* all of them are to end *)
Definition going (k : kind) (x : inst) : Prop := i_want x = PExit /\ has_process k x.
Definition ending (m : Z) (l : list ent) : Prop := forall e, In e l -> e_id e <> m -> forall x, In x (e_inst e) -> going (e_kind e) x.
Definition less (m : Z) (i : input) (e e' : ent) : Prop := conf e' = conf e /\ (e_id e <> m -> 
  (forall x, In x (e_inst e') -> In x (e_inst e)) /\ forall x, In x (e_inst e) -> In x (e_inst e') \/ exists p, i = Exit p /\ i_pid x = Some p).
Lemma less_refl m i e : less m i e e. Proof. split; [auto|]. intros _. split; auto. Qed.
Lemma less_trans m i a b c : less m i a b -> less m i b c -> less m i a c.
Proof.
  intros [A B] [C D]. assert (E : e_id b = e_id a) by (unfold conf in A; congruence). split; [congruence|]. intro N. destruct (B N) as [B1 B2]. rewrite E in D. destruct (D N) as [D1 D2]. split; [auto|].
  intros x J. destruct (B2 x J) as [K|K]; [|auto]. destruct (D2 x K); auto.
Qed.
Lemma F2_less_refl m i l : Forall2 (less m i) l l. Proof. apply Forall2_same. intros. apply less_refl. Qed.
Lemma drop_less m p e : (e_id e <> m -> forall x, In x (e_inst e) -> going (e_kind e) x) -> less m (Exit p) e (ent_drop p e).
Proof.
  intro H. split; [reflexivity|]. intro N. specialize (H N). unfold ent_drop. cbn [with_inst e_inst]. revert H. generalize (e_restart e) as r, (e_kind e) as k. intros r k. induction (e_inst e) as [|y l IH]; intro H; cbn [drop]; [split; [auto|intros x []]|].
  destruct (H y (or_introl eq_refl)) as [W _]. destruct (has_pid p y) eqn:P.
  - rewrite W. split; [intros x J; now right|]. intros x [<-|J]; [|auto]. right. exists p. split; [auto|]. unfold has_pid in P. destruct (i_pid y); [apply Z.eqb_eq in P; now subst|discriminate].
  - destruct IH as [A B]; [intros; apply H; now right|]. split.
    + intros x [<-|J]; [now left|right; auto].
    + intros x [<-|J]; [left; now left|]. destruct (B x J) as [K|K]; [left; now right|auto].
Qed.
Lemma put_less m i es e e' : NoDup (map e_id es) -> In e es -> less m i e e' -> Forall2 (less m i) es (put_in e' es).
Proof. intros N J C. apply (put_forall2 (less m i) es e e'); auto; [|apply less_refl]. destruct C as [C _]. unfold conf in C. congruence. Qed.
Lemma F2_less_trans m i a b c : Forall2 (less m i) a b -> Forall2 (less m i) b c -> Forall2 (less m i) a c.
Proof. apply Forall2_trans'. intros x y z. apply less_trans. Qed.
Lemma ending_less m i l l' : Forall2 (less m i) l l' -> ending m l -> ending m l'.
Proof.
  intros F E e J N x X. destruct (F2_in _ _ _ _ F J) as (e0 & J0 & C & L). assert (I : e_id e = e_id e0 /\ e_kind e = e_kind e0) by (unfold conf in C; split; congruence). destruct I as [I1 I2]. rewrite I1 in N. rewrite I2. apply (E e0 J0 N). now apply (L N).
Qed.
(* what a scale to none leaves *)
Lemma scale_none e : exists e', scale 0 e = Some e' /\ (forall x, In x (e_inst e') -> going (e_kind e) x /\ exists y, In y (e_inst e) /\ proc y = proc x) /\ (forall y, In y (e_inst e) -> has_process (e_kind e) y -> In (Inst (i_pid y) (i_ipc y) PExit) (e_inst e')).
Proof.
  destruct (scale 0 e) as [e'|] eqn:E; [|apply scale_undefined in E; lia]. exists e'. split; [auto|]. destruct (scale_less 0 e e' E) as (kept & rest & P & L & _ & out & O & A & B); [lia|]. destruct kept; [|discriminate]. cbn [app map] in *. rewrite O. split.
  - intros x J. destruct (A x J) as (A1 & A2 & A3). split; [split; auto|]. apply in_map_iff in A3 as (y & A3 & A4). exists y. split; [|auto]. apply (Permutation_in _ (Permutation_sym P)). auto.
  - intros y J H. apply (Permutation_in _ P) in J. apply (B y J) in H. apply in_map_iff in H as (x & H1 & H2). destruct (A x H2) as (W & _). destruct x as [a b w]. unfold proc in H1. cbn in *. injection H1 as <- <-. subst w. auto.
Qed.
Lemma down_less m i d : d_mgr d = m -> ending m (d_ents d) -> Forall2 (less m i) (d_ents d) (d_ents (down_pre d)).
Proof.
  intros M. unfold down_pre. cbn [d_ents set_ents cancel set_tasks set_level]. rewrite M. clear M. induction (d_ents d) as [|e l IH]; intro E; cbn [map]; constructor; [|apply IH; intros f J; apply E; now right]. destruct (e_id e =? m) eqn:Q; [apply less_refl|]. apply Z.eqb_neq in Q.
  specialize (E e (or_introl eq_refl) Q). split; [apply scale_to_conf|]. intros _. destruct (scale_none e) as (e' & S & A & B). unfold scale_to. rewrite S. split.
  - intros x J. destruct (A x J) as ((W & _) & y & J' & P). destruct (E y J') as (W' & _). destruct x as [a b w], y as [a' b' w']. unfold proc in P. cbn in *. subst. injection P as -> ->. auto.
  - intros x J. left. destruct (E x J) as (W & P). specialize (B x J P). destruct x as [a b w]. cbn in *. now subst w.
Qed.
Lemma ents_less m i d : uniq d -> rank Running < rank (d_level d) -> d_mgr d = m -> ending m (d_ents d) -> (forall p gs n es, i <> Begin p gs n es) -> (forall l, i <> ScaleTo l) -> Forall2 (less m i) (d_ents d) (ents_of i d).
Proof.
  intros U L M E NB NS. pose proof (F2_less_refl m i (d_ents d)) as R. destruct i; cbn [ents_of]; auto.
  - exfalso. now apply (NB pid gs mgr es).
  - assert (DL : forall e, In e (d_ents d) -> less m (Exit pid) e (ent_drop pid e)) by (intros e J; apply drop_less; auto). rewrite remove_ents. cbv zeta. destruct (server_of pid d) as [e|] eqn:S.
    + apply server_of_in in S as (J & _). assert (F : Forall2 (less m (Exit pid)) (d_ents d) (put_in (ent_drop pid e) (d_ents d))) by (apply (put_less m _ _ e); auto). destruct (e_restart e && _); [auto|].
      destruct (find _ _) as [x|] eqn:G; [|auto]. apply find_some in G as [G _]. eapply F2_less_trans; [exact F|]. apply (put_less m _ _ x); auto.
      * assert (C : map conf (put_in (ent_drop pid e) (d_ents d)) = map conf (d_ents d)) by (apply (F2_conf (less m (Exit pid))); auto; intros a b (H & _); auto). rewrite (conf_ids _ _ C). exact U.
      * apply drop_less. intros N. apply (ending_less _ _ _ _ F E); auto.
    + destruct (exec_of pid d) as [x|] eqn:G; [|auto]. apply exec_of_in in G as (J & _). apply (put_less m _ _ x); auto.
  - assert (rank Running <? rank (d_level d) = true) as -> by now apply Z.ltb_lt. auto.
  - now apply down_less.
  - destruct (d_level d); cbn in L; try lia; auto.
  - exfalso. now apply (NS l).
Qed.
Lemma grown_going x id k l l' : (forall y, In y l -> going k y) -> Forall2 (grown x id) l l' -> l' = l.
Proof. intros H F. induction F as [|a b l m G F IH]; [auto|]. rewrite IH by (intros; apply H; now right). destruct G as [->|(_ & W & _)]; [auto|]. destruct (H a (or_introl eq_refl)) as [W' _]. congruence. Qed.
Lemma egrown_less m x i l l' : ending m l -> Forall2 (egrown x) l l' -> Forall2 (less m i) l l'.
Proof.
  intros E F. induction F as [|a b l l' [C G] F IH]; constructor; [|apply IH; intros e J; apply E; now right]. split; [auto|]. intro N. rewrite (grown_going _ _ _ _ _ (E a (or_introl eq_refl) N) G). split; auto.
Qed.
Lemma step_less o i d d' ev : uniq d -> rank Running < rank (d_level d) -> ending (d_mgr d) (d_ents d) -> (forall p gs n es, i <> Begin p gs n es) -> (forall l, i <> ScaleTo l) -> step o i d = Some (d', ev) ->
  Forall2 (less (d_mgr d) i) (d_ents d) (d_ents d').
Proof.
  intros U L E NB NS S. pose proof (ents_less (d_mgr d) i d U L eq_refl E NB NS) as F. assert (BN : forall p gs n es, i = Begin p gs n es -> NoDup (map e_id es)) by (intros p gs n es Q; exfalso; now apply (NB p gs n es)).
  pose proof (w_ents _ _ _ _ (step_grows o i d d' ev U BN S)) as G. eapply F2_less_trans; [exact F|]. apply (egrown_less _ ev); [|auto]. now apply (ending_less _ _ _ _ F).
Qed.
Lemma terminate_ending o d d' ev : uniq d -> step o Terminate d = Some (d', ev) -> ending (d_mgr d) (d_ents d')
  /\ forall e x, In e (d_ents d) -> e_id e <> d_mgr d -> In x (e_inst e) -> has_process (e_kind e) x -> exists e' x', In e' (d_ents d') /\ conf e' = conf e /\ In x' (e_inst e') /\ i_pid x' = i_pid x.
Proof.
  intros U S. assert (BN : forall p gs n es, Terminate = Begin p gs n es -> NoDup (map e_id es)) by discriminate. pose proof (w_ents _ _ _ _ (step_grows o Terminate d d' ev U BN S)) as G. cbn [ents_of] in G.
  assert (E0 : ending (d_mgr d) (d_ents (down_pre d))).
  { unfold down_pre. cbn [d_ents set_ents cancel set_tasks set_level]. intros e J N x X. apply in_map_iff in J as (f & <- & J). destruct (e_id f =? d_mgr d) eqn:Q; [apply Z.eqb_eq in Q; congruence|]. destruct (scale_none f) as (f' & S1 & A & _). pose proof (scale_to_conf 0 f) as C. unfold scale_to in *. rewrite S1 in *. assert (e_kind f' = e_kind f) as -> by (unfold conf in C; congruence). now apply A. }
  assert (F : Forall2 (less (d_mgr d) Terminate) (d_ents (down_pre d)) (d_ents d')) by (apply (egrown_less _ ev); auto). split; [now apply (ending_less _ _ _ _ F)|].
  intros e x J N X H. assert (JD : In (scale_to 0 e) (d_ents (down_pre d))). { unfold down_pre. cbn [d_ents set_ents cancel set_tasks set_level]. apply in_map_iff. exists e. apply Z.eqb_neq in N. rewrite N. auto. }
  destruct (F2_in_l _ _ _ _ F JD) as (e' & J' & C & L). pose proof (scale_to_conf 0 e) as C0. assert (I : e_id (scale_to 0 e) = e_id e) by (unfold conf in C0; congruence). rewrite I in L. destruct (L N) as [_ L2].
  destruct (scale_none e) as (f & S1 & _ & B). specialize (B x X H). unfold scale_to in *. rewrite S1 in *. destruct (L2 _ B) as [K|(p & K & _)]; [|discriminate]. exists e'. eexists. split; [exact J'|]. split; [congruence|]. split; [exact K|reflexivity].
Qed.
Lemma down_level d h : reach d h -> down h -> rank Running < rank (d_level d).
Proof. intros R D. pose proof (k_level _ _ (reach_kept _ _ R)) as K. destruct (d_level d); cbn; try lia; tauto. Qed.
Lemma terminate_down h ev r : down (h ++ (Terminate, ev) :: r).
Proof. left. rewrite inputs_app. apply in_or_app. right. left. reflexivity. Qed.
Lemma not_nil {A} (h : list A) x r : h ++ x :: r <> []. Proof. intro E. apply app_eq_nil in E as [_ E]. discriminate. Qed.
(* since it was told to, all that isn't the manager itself is to end *)
Lemma down_ending r : forall d h ev, reach d (h ++ (Terminate, ev) :: r) -> (forall l, ~ In (ScaleTo l) (inputs r)) -> h <> [] -> ending (d_mgr d) (d_ents d).
Proof.
  induction r as [|[i e] r IH] using rev_ind; intros d h ev R NS NH.
  - apply reach_last in R as (d0 & o & R0 & P & S). destruct (step_all o Terminate d0 d ev (k_rest _ _ (reach_kept _ _ R0))) as [_ _ M _ _ _ _ _]; [discriminate|auto|]. rewrite M. apply (terminate_ending o d0 d ev); auto. apply (k_rest _ _ (reach_kept _ _ R0)).
  - rewrite app_comm_cons, app_assoc in R. apply reach_last in R as (d0 & o & R0 & P & S). pose proof (not_begin _ o i P (not_nil _ _ _)) as NB. assert (E : ending (d_mgr d0) (d_ents d0)) by (apply (IH d0 h ev R0); auto; intros l J; apply (NS l); rewrite inputs_app; apply in_or_app; auto).
    destruct (step_all o i d0 d e (k_rest _ _ (reach_kept _ _ R0)) NB S) as [_ _ M _ _ _ _ _]. rewrite M. apply (ending_less (d_mgr d0) i (d_ents d0)); [|auto]. apply (step_less o i d0 d e); auto; [apply (k_rest _ _ (reach_kept _ _ R0))|apply (down_level _ _ R0), terminate_down|].
    intros l ->. apply (NS l). rewrite inputs_app. apply in_or_app. right. left. reflexivity.
Qed.
Lemma rest_none k x : going k x -> at_rest k x -> False.
Proof. intros [W H] A. unfold at_rest in A. rewrite W in A. apply A. unfold has_process in H. destruct k; exact H. Qed.
Lemma begun_mgr d h p gs m es : reach d h -> begun p gs m es h -> d_mgr d = m /\ d_groups d = gs /\ map conf (d_ents d) = map conf es.
Proof. intros R B. destruct (k_conf _ _ (reach_kept _ _ R) _ _ _ _ B) as (A & C & D). auto. Qed.
Theorem down_ended d h p gs m es ev r b e : reach d (h ++ (Terminate, ev) :: r) -> begun p gs m es h -> (forall l, ~ In (ScaleTo l) (inputs r)) -> In (Ended b) (ev ++ effects r) -> In e (d_ents d) -> In (e_id e) b -> e_id e <> m -> e_inst e = [].
Proof.
  revert d e. induction r as [|[i v] r IH] using rev_ind; intros d e R B NS J Je K N.
  - cbn in J. rewrite app_nil_r in J. assert (NH : h <> []) by (destruct B as (? & ? & ->); discriminate). pose proof (down_ending [] d h ev R NS NH) as E. destruct (begun_mgr _ _ _ _ _ _ R (begun_app _ _ _ _ _ _ B)) as (M & _). rewrite M in E.
    destruct (e_inst e) as [|x l] eqn:X; [auto|]. exfalso. apply (rest_none (e_kind e) x); [apply (E e Je N); rewrite X; now left|]. apply (batch_at_rest d h Terminate ev b e R J Je K). rewrite X. now left.
  - assert (NH : h <> []) by (destruct B as (? & ? & ->); discriminate). destruct (begun_mgr _ _ _ _ _ _ R (begun_app _ _ _ _ _ _ B)) as (M & _). pose proof (down_ending _ _ _ _ R NS NH) as E. rewrite M in E.
    assert (RR := R). rewrite app_comm_cons, app_assoc in R. rewrite effects_app, app_assoc in J. apply in_app_or in J as [J|J].
    + apply reach_last in R as (d0 & o & R0 & P & S). pose proof (not_begin _ o i P (not_nil _ _ _)) as NB. assert (NS0 : forall l, ~ In (ScaleTo l) (inputs r)) by (intros l Q; apply (NS l); rewrite inputs_app; apply in_or_app; auto).
      pose proof (down_ending r d0 h ev R0 NS0 NH) as E0. assert (F : Forall2 (less (d_mgr d0) i) (d_ents d0) (d_ents d)).
      { apply (step_less o i d0 d v); auto; [apply (k_rest _ _ (reach_kept _ _ R0))|apply (down_level _ _ R0), terminate_down|]. intros l ->. apply (NS l). rewrite inputs_app. apply in_or_app. right. left. reflexivity. }
      destruct (F2_in _ _ _ _ F Je) as (e0 & J0 & C & L). assert (I : e_id e0 = e_id e) by (unfold conf in C; congruence). destruct (begun_mgr _ _ _ _ _ _ R0 (begun_app _ _ _ _ _ _ B)) as (M0 & _). rewrite M0, I in L. destruct (L N) as [L1 _].
      assert (Z0 : e_inst e0 = []) by (apply (IH d0 e0); auto; congruence). destruct (e_inst e) as [|x l]; [auto|]. exfalso. specialize (L1 x (or_introl eq_refl)). rewrite Z0 in L1. contradiction.
    + rewrite effects_one in J. destruct (e_inst e) as [|x l] eqn:X; [auto|]. exfalso. apply (rest_none (e_kind e) x); [apply (E e Je N); rewrite X; now left|]. apply (batch_at_rest d _ i v b e R J Je K). rewrite X. now left.
Qed.
Lemma leads_reach d0 h d r : reach d0 h -> leads h d0 d r -> reach d (h ++ r).
Proof. intros R L. induction L as [|d r o i d' ev L IH P S]; [rewrite app_nil_r; auto|]. rewrite app_assoc. apply (reach_step d (h ++ r) o i d' ev); auto. Qed.
Lemma leads_last h d0 d r i ev : leads h d0 d (r ++ [(i, ev)]) -> exists d1 o, leads h d0 d1 r /\ possible (h ++ r) o i /\ step o i d1 = Some (d, ev).
Proof. intro L. inversion L as [E|d1 r1 o j d' ev' L1 P S E1 E2]; [destruct r; discriminate|]. apply app_inj_tail in E2 as [-> E2]. injection E2 as -> ->. eauto. Qed.
(* a process of an instance is there, or it has ended *)
Lemma down_tracks r : forall d0 h d ev e x p, reach d0 h -> h <> [] -> leads h d0 d ((Terminate, ev) :: r) -> (forall l, ~ In (ScaleTo l) (inputs r)) -> In e (d_ents d0) -> e_id e <> d_mgr d0 -> In x (e_inst e) -> has_process (e_kind e) x -> i_pid x = Some p ->
  In (Exit p) (inputs r) \/ exists e' x', In e' (d_ents d) /\ conf e' = conf e /\ In x' (e_inst e') /\ i_pid x' = Some p.
Proof.
  induction r as [|[i v] r IH] using rev_ind; intros d0 h d ev e x p R NH L NS J N X H Pp.
  - apply (leads_last h d0 d []) in L as (d1 & o & L & P & S). inversion L as [E|? ? ? ? ? ? ? ? ? E1 E2]; [subst d1|destruct r; discriminate]. right. destruct (terminate_ending o d0 d ev) as [_ T]; [apply (k_rest _ _ (reach_kept _ _ R))|exact S|].
    destruct (T e x J N X H) as (e' & x' & A & B & C & D). exists e', x'. rewrite D. auto.
  - rewrite app_comm_cons in L. apply leads_last in L as (d1 & o & L & P & S). assert (NS0 : forall l, ~ In (ScaleTo l) (inputs r)) by (intros l Q; apply (NS l); rewrite inputs_app; apply in_or_app; auto).
    rewrite inputs_app. destruct (IH d0 h d1 ev e x p R NH L NS0 J N X H Pp) as [A|(e' & x' & A & B & C & D)]; [left; apply in_or_app; auto|]. pose proof (leads_reach _ _ _ _ R L) as R1. pose proof (not_begin _ o i P (not_nil _ _ _)) as NB.
    assert (F : Forall2 (less (d_mgr d1) i) (d_ents d1) (d_ents d)).
    { apply (step_less o i d1 d v); auto; [apply (k_rest _ _ (reach_kept _ _ R1))|apply (down_level _ _ R1), terminate_down|apply (down_ending r d1 h ev R1 NS0 NH)|]. intros l ->. apply (NS l). rewrite inputs_app. apply in_or_app. right. left. reflexivity. }
    destruct (F2_in_l _ _ _ _ F A) as (f & Jf & Cf & Lf). assert (M : d_mgr d1 = d_mgr d0). { destruct (reach_begun d0 h R) as [[-> _]|(p0 & gs & m & es & Bg & _)]; [contradiction|]. destruct (begun_mgr _ _ _ _ _ _ R Bg) as (-> & _). now destruct (begun_mgr _ _ _ _ _ _ R1 (begun_app _ _ _ _ _ _ Bg)) as (-> & _). }
    assert (I : e_id e' = e_id e) by (unfold conf in B; congruence). rewrite M, I in Lf. destruct (Lf N) as [_ L2]. destruct (L2 x' C) as [K|(q & -> & K)].
    + right. exists f, x'. split; [auto|]. split; [congruence|]. auto.
    + left. apply in_or_app. right. left. rewrite D in K. injection K as ->. reflexivity.
Qed.
Theorem down_gone d0 h d ev r p gs m es e g x q : reach d0 h -> begun p gs m es h -> leads h d0 d ((Terminate, ev) :: r) -> stopped d = true -> ~ In Terminate (inputs r) -> (forall l, ~ In (ScaleTo l) (inputs r)) ->
  In e (d_ents d0) -> in_group gs e g -> e_id e <> m -> In x (e_inst e) -> has_process (e_kind e) x -> i_pid x = Some q -> In (Exit q) (inputs r).
Proof.
  intros R B L St NT NS J G N X H Q. assert (NH : h <> []) by (destruct B as (? & ? & ->); discriminate). destruct (begun_mgr _ _ _ _ _ _ R B) as (M & GS & CF). pose proof (leads_reach _ _ _ _ R L) as R1.
  destruct (down_tracks r d0 h d ev e x q R NH L NS J) as [A|(e' & x' & A & C & D & F)]; auto; [congruence|]. exfalso.
  destruct (shutdown_sequence d h p gs m es ev r R1 B NT) as (first & more & _ & _ & _ & _ & _ & T). specialize (T St).
  assert (I : In (conf e) (map conf es)) by (rewrite <- CF; now apply in_map). apply in_map_iff in I as (e0 & C0 & J0). assert (Z0 : e_id e0 = e_id e /\ e_memb e0 = e_memb e) by (unfold conf in C0; split; congruence). destruct Z0 as [Z1 Z2].
  destruct (reach_begun d0 h R) as [[-> _]|(p' & gs' & m' & es' & B' & (_ & ND & _))]; [contradiction|]. destruct (begun_fun _ _ _ _ _ _ _ _ _ B B') as (<- & <- & <- & <-).
  assert (K : In (e_id e) (concat (boot_order gs m es))). { apply (count_occ_In Z.eq_dec). rewrite <- Z1, (placed gs m es e0 g); auto; [congruence|]. unfold in_group. now rewrite Z2. }
  apply in_concat in K as (b & K1 & K2). assert (EB : In (Ended b) (ev ++ effects r)).
  { assert (W : In (Ended b) (marks (ev ++ effects r))). { rewrite T. apply in_or_app. right. apply in_or_app. left. unfold in_turn. apply in_flat_map. exists b. split; [now apply -> in_rev|]. right. left. reflexivity. } unfold marks in W. now apply filter_In in W. }
  assert (I' : e_id e' = e_id e) by (unfold conf in C; congruence). rewrite (down_ended d h p gs m es ev r b e' R1 B NS EB A) in D; [contradiction|congruence|congruence].
Qed.
