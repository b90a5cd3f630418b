(* The domain manager: when a batch begins, all that hasn't been started of it is started. *)
From Coq Require Import ZArith List Bool Lia Permutation.
From Verif Require Import DomModel DomSpec DomBoot DomFrame DomMarks DomStep DomSeq DomTalk DomSing DomLook DomGrew DomProc DomKeep DomDown DomTold DomOnly DomPids DomCount.
Import ListNotations.
Local Open Scope Z_scope.

Definition vac (e : ent) : Prop := e_on e = true /\ forall i, In i (e_inst e) -> i = Inst None None PRun.
Definition kept_or (e : ent) (d' : dom) (x : list effect) : Prop :=
  (In e (d_ents d') /\ forall b, In (Begun b) x -> ~ In (e_id e) b) \/ exists e', In e' (d_ents d') /\ conf e' = conf e /\ length (e_inst e') = length (e_inst e) /\ forall i, In i (e_inst e') -> started (e_id e) x i.
Record st (d d' : dom) (x : list effect) : Prop := St { s_out : d_out d' = d_out d ++ x; s_grew : exists z, Forall2 (egrown z) (d_ents d) (d_ents d'); s_vac : forall e, In e (d_ents d) -> vac e -> kept_or e d' x }.
Lemma started_more id x y i : incl x y -> started id x i -> started id y i.
Proof. intros H [(p & A & B)|[A B]]; [left; eauto|right; auto]. Qed.
Lemma F2_length {A B} (P : A -> B -> Prop) l m : Forall2 P l m -> length m = length l.
Proof. intro F. induction F; cbn; auto. Qed.
Lemma st_same d d' x : d_out d' = d_out d ++ x -> d_ents d' = d_ents d -> (forall b, ~ In (Begun b) x) -> st d d' x.
Proof. intros A B N. constructor; [auto|exists []; rewrite B; apply Forall2_same; intros; apply egrown_refl|]. intros e J V. left. rewrite B. split; [auto|]. intros b K. exfalso. now apply (N b). Qed.
Lemma st_refl d : st d d [].
Proof. apply st_same; auto. now rewrite app_nil_r. Qed.
Lemma st_trans a b c x y : st a b x -> st b c y -> st a c (x ++ y).
Proof.
  intros [A1 (z & A2) A3] [B1 (w & B2) B3]. constructor.
  - now rewrite B1, A1, app_assoc.
  - exists (z ++ w). apply (Forall2_trans' (egrown z) (egrown w) _ _ (d_ents b)); auto. intros p q r. apply egrown_trans.
  - intros e J V. destruct (A3 e J V) as [[J1 N1]|(e1 & J1 & C1 & L1 & S1)].
    + destruct (B3 e J1 V) as [[J2 N2]|(e2 & J2 & C2 & L2 & S2)].
      * left. split; [auto|]. intros t K. apply in_app_or in K as [K|K]; auto.
      * right. exists e2. split; [auto|]. split; [auto|]. split; [auto|]. intros i K. apply (started_more _ y); [apply incl_appr, incl_refl|auto].
    + right. destruct (F2_in_l _ _ _ _ B2 J1) as (e2 & J2 & C2 & F). exists e2. split; [auto|]. split; [congruence|]. split; [rewrite (F2_length _ _ _ F); auto|]. intros i K. destruct (F2_in _ _ _ _ F K) as (i0 & K0 & G). specialize (S1 i0 K0).
      assert (E : i = i0). { destruct G as [->|(N & W & _)]; [auto|]. destruct S1 as [(p & -> & _)|[-> _]]; discriminate. } subst i0. apply (started_more _ x); [apply incl_appl, incl_refl|auto].
Qed.
Lemma st_say e d : (forall b, e <> Begun b) -> st d (say [e] d) [e].
Proof. intro N. apply st_same; auto. intros b [K|[]]. now apply (N b). Qed.
Lemma st_tasks l d : st d (set_tasks l d) [].
Proof. apply st_same; auto. cbn. now rewrite app_nil_r. Qed.
Lemma subrange_vac {A} (p : A -> bool) l : (forall x, In x l -> p x = true) -> subrange p l = ([], l, []).
Proof.
  intro H. unfold subrange. destruct l as [|x l]; [auto|]. cbn [span]. rewrite (H x (or_introl eq_refl)). cbn [negb]. pose proof (span_all p l [] (fun y J => H y (or_intror J)) Logic.I) as Q. rewrite app_nil_r in Q.
  cbn [span]. rewrite Q. rewrite ?(H x (or_introl eq_refl)), ?Q. reflexivity.
Qed.
Lemma spawns_started id l : forall o l' ev o', (forall i, In i l -> i = Inst None None PRun) -> spawns id l o = (l', ev, o') -> forall i, In i l' -> started id ev i.
Proof.
  induction l as [|i l IH]; intros o l' ev o' V; cbn [spawns]; [intro H; injection H as <- <- <-; contradiction|]. pose proof (V i (or_introl eq_refl)) as ->. assert (Vl : forall j, In j l -> j = Inst None None PRun) by (intros; apply V; now right).
  assert (K : forall u v w o1 f y, spawns id l o1 = (u, v, w) -> started id (f :: v) y -> forall j, In j (y :: u) -> started id (f :: v) j) by (intros u v w o1 f y E S j [<-|J]; [auto|apply (started_more _ v); [intros z Z; now right|now apply (IH o1 u v w)]]).
  destruct o as [|[p|] o]; cbn [tl].
  - destruct (spawns id l []) as [[u v] w] eqn:E. intro H; injection H as <- <- <-. apply (K _ _ _ _ _ _ E). right. split; [auto|now left].
  - destruct (spawns id l o) as [[u v] w] eqn:E. intro H; injection H as <- <- <-. apply (K _ _ _ _ _ _ E). left. exists p. split; [auto|now left].
  - destruct (spawns id l o) as [[u v] w] eqn:E. intro H; injection H as <- <- <-. apply (K _ _ _ _ _ _ E). right. split; [auto|now left].
Qed.
Lemma in_scale_out e d : uniq d -> In e (d_ents d) -> exists x, d_out (scale_out e d) = d_out d ++ x /\ (forall f, In f x -> match f with Spawned _ _ | Failed _ => True | _ => False end) /\ (exists z, Forall2 (egrown z) (d_ents d) (d_ents (scale_out e d))) /\
  (forall e2, In e2 (d_ents d) -> e_id e2 <> e_id e -> In e2 (d_ents (scale_out e d))) /\ (vac e -> exists e', In e' (d_ents (scale_out e d)) /\ conf e' = conf e /\ length (e_inst e') = length (e_inst e) /\ forall i, In i (e_inst e') -> started (e_id e) x i).
Proof.
  intros U J. destruct (grew_scale_out e d U J) as (u & G). assert (GG : exists z, Forall2 (egrown z) (d_ents d) (d_ents (scale_out e d))) by (exists u; apply G). clear G. revert GG. unfold scale_out.
  assert (SK : forall e2, e_id e2 <> e_id e -> forall m, In e2 (d_ents d) -> In e2 (d_ents (put (with_inst m e) d))).
  { intros e2 N m K. cbn. apply in_map_iff. exists e2. split; [|auto]. cbn. destruct (e_id e2 =? e_id e) eqn:Q; [|auto]. apply Z.eqb_eq in Q. contradiction. }
  assert (ME : forall m, In (with_inst m e) (d_ents (put (with_inst m e) d))).
  { intro m. cbn. apply in_map_iff. exists e. cbn. rewrite Z.eqb_refl. auto. }
  assert (OFF : forall P, (vac e -> P) -> (match e_kind e with Server => e_on e | Exec => true end = false -> vac e -> P)) by auto.
  destruct (match e_kind e with Server => e_on e | Exec => true end) eqn:On.
  - destruct (subrange _ _) as [[a r] c] eqn:S. assert (VV : vac e -> (a, r, c) = ([], e_inst e, [])).
    { intros [_ V]. rewrite <- S. apply subrange_vac. intros i K. rewrite (V i K). destruct (e_kind e); reflexivity. }
    destruct r as [|z r].
    + intro GG. exists []. rewrite app_nil_r. split; [auto|]. split; [contradiction|]. split; [auto|]. split; [auto|]. intro V. specialize (VV V). injection VV as -> E ->. exists e. split; [auto|]. split; [auto|]. split; [auto|]. rewrite <- E. contradiction.
    + destruct (spawns _ _ _) as [[l' ev] o] eqn:W. intro GG. exists ev. split; [reflexivity|]. pose proof (spawns_out _ _ _ _ _ _ W) as (W1 & W2 & _). split; [intros f K; specialize (W1 f K); destruct f; (exact Logic.I || contradiction)|]. split; [exact GG|].
      split; [intros e2 K N; now apply SK|]. intro V. specialize (VV V). injection VV as -> E ->. eexists. split; [apply ME|]. split; [reflexivity|]. cbn [with_inst e_inst app]. rewrite app_nil_r. split; [rewrite W2, E; auto|]. apply (spawns_started _ _ _ _ _ _ (fun i K => proj2 V i (eq_ind _ (fun l => In i l) K _ E)) W).
  - intro GG. exists []. rewrite app_nil_r. split; [auto|]. split; [contradiction|]. split; [auto|]. split; [auto|]. intros [V _]. destruct (e_kind e); congruence.
Qed.
Lemma in_out e d : exists x, d_out (scale_in e d) = d_out d ++ x /\ (forall f, In f x -> match f with Prepare _ _ | Term _ => True | _ => False end).
Proof. destruct (scale_in_frame e d) as (x & F & A & _). exists x. split; [apply F|auto]. Qed.
(* the entity [id]: it's started if it hasn't been *)
Lemma id_st id d : uniq d -> exists x, st d (instances_id d id) x /\ (forall b, ~ In (Begun b) x) /\ forall e, In e (d_ents d) -> vac e -> e_id e = id -> exists e', In e' (d_ents (instances_id d id)) /\ conf e' = conf e /\ length (e_inst e') = length (e_inst e) /\ forall i, In i (e_inst e') -> started (e_id e) x i.
Proof.
  intro U. unfold instances_id. destruct (entity id d) as [e0|] eqn:E.
  - apply entity_in in E as [J <-]. unfold instances. destruct (scale_in_frame e0 d) as (_ & _ & _ & I & _). destruct (in_out e0 d) as (x & X1 & X2). destruct (in_scale_out e0 (scale_in e0 d)) as (y & Y1 & Y2 & Y3 & Y4 & Y5); [unfold uniq; now rewrite I|now rewrite I|]. rewrite I in Y3, Y4.
    assert (N : forall b, ~ In (Begun b) (x ++ y)) by (intros b K; apply in_app_or in K as [K|K]; [exact (X2 _ K)|exact (Y2 _ K)]).
    assert (M : forall e, In e (d_ents d) -> vac e -> e_id e = e_id e0 -> exists e', In e' (d_ents (scale_out e0 (scale_in e0 d))) /\ conf e' = conf e /\ length (e_inst e') = length (e_inst e) /\ forall i, In i (e_inst e') -> started (e_id e) (x ++ y) i).
    { intros e K V Q. assert (e = e0) by (apply (uniq_id (d_ents d)); auto). subst e0. destruct (Y5 V) as (e' & A & B & C & D). exists e'. split; [auto|]. split; [auto|]. split; [auto|]. intros i Z. apply (started_more _ y); [apply incl_appr, incl_refl|auto]. }
    exists (x ++ y). split; [|split; [auto|exact M]]. constructor; [now rewrite Y1, X1, app_assoc|auto|]. intros e K V. destruct (Z.eq_dec (e_id e) (e_id e0)) as [Q|Q]; [right; now apply M|left]. split; [now apply Y4|]. intros b B. exfalso. now apply (N b).
  - exists []. split; [apply st_refl|]. split; [auto|]. intros e J V <-. rewrite (in_entity d e U J) in E. discriminate.
Qed.
Lemma fold_st ids : forall d, uniq d -> exists x, st d (fold_left instances_id ids d) x /\ (forall b, ~ In (Begun b) x) /\ forall e, In e (d_ents d) -> vac e -> In (e_id e) ids -> exists e', In e' (d_ents (fold_left instances_id ids d)) /\ conf e' = conf e /\ length (e_inst e') = length (e_inst e) /\ forall i, In i (e_inst e') -> started (e_id e) x i.
Proof.
  induction ids as [|id r IH]; intros d U; cbn [fold_left].
  - exists []. split; [apply st_refl|]. split; [auto|]. intros e J V [].
  - destruct (id_st id d U) as (x & A & N & T). destruct (grew_id id d U) as (z & G). destruct (IH _ (grew_uniq _ _ _ G U)) as (y & B & N2 & T2). exists (x ++ y). pose proof (st_trans _ _ _ _ _ A B) as AB. split; [exact AB|].
    split; [intros b K; apply in_app_or in K as [K|K]; [now apply (N b)|now apply (N2 b)]|]. intros e J V K. destruct (s_vac _ _ _ A e J V) as [[J1 _]|(e1 & J1 & C1 & L1 & S1)].
    + destruct K as [K|K].
      * destruct (T e J V (eq_sym K)) as (e1 & J2 & C1 & L1 & S1). destruct (s_grew _ _ _ B) as (w & F). destruct (F2_in_l _ _ _ _ F J2) as (e2 & J3 & C2 & F2). exists e2. split; [auto|]. split; [congruence|]. split; [rewrite (F2_length _ _ _ F2); auto|]. intros i Ki. destruct (F2_in _ _ _ _ F2 Ki) as (i0 & K0 & Gi). specialize (S1 i0 K0).
        assert (E : i = i0). { destruct Gi as [->|(Ni & W & _)]; [auto|]. destruct S1 as [(p & -> & _)|[-> _]]; discriminate. } subst i0. apply (started_more _ x); [apply incl_appl, incl_refl|auto].
      * destruct (T2 e J1 V K) as (e1 & J2 & C1 & L1 & S1). exists e1. split; [auto|]. split; [auto|]. split; [auto|]. intros i Ki. apply (started_more _ y); [apply incl_appr, incl_refl|auto].
    + destruct (s_grew _ _ _ B) as (w & F). destruct (F2_in_l _ _ _ _ F J1) as (e2 & J3 & C2 & F2). exists e2. split; [auto|]. split; [congruence|]. split; [rewrite (F2_length _ _ _ F2); auto|]. intros i Ki. destruct (F2_in _ _ _ _ F2 Ki) as (i0 & K0 & Gi). specialize (S1 i0 K0).
      assert (E : i = i0). { destruct Gi as [->|(Ni & W & _)]; [auto|]. destruct S1 as [(p & -> & _)|[-> _]]; discriminate. } subst i0. apply (started_more _ x); [apply incl_appl, incl_refl|auto].
Qed.
Lemma start_st t d : uniq d -> exists x, st d (fst (start t d)) x.
Proof.
  intro U. destruct t as [ids| |w]; cbn [start].
  - destruct (fold_st ids (say [Begun ids] d) U) as (x & P & N & T). set (d1 := fold_left instances_id ids (say [Begun ids] d)) in *.
    assert (P1 : st d d1 (Begun ids :: x)).
    { destruct P as [P1 P2 P3]. constructor; [rewrite P1; cbn; now rewrite <- app_assoc|exact P2|]. intros e J V. destruct (in_dec Z.eq_dec (e_id e) ids) as [K|K].
      - right. destruct (T e J V K) as (e' & A & B & C & D). exists e'. split; [auto|]. split; [auto|]. split; [auto|]. intros i Ki. apply (started_more _ x); [intros z Z; now right|auto].
      - destruct (P3 e J V) as [[J1 N1]|(e' & A & B & C & D)]; [left; split; [auto|]; intros b [Kb|Kb]; [injection Kb as <-; auto|now apply N1]|right; exists e'; split; [auto|split; [auto|split; [auto|]]]; intros i Ki; apply (started_more _ x); [intros z Z; now right|auto]]. }
    destruct (group_done ids d1); cbn [fst]; [|eauto]. eexists. eapply st_trans; [exact P1|]. apply st_say. discriminate.
  - exists [Booted]. apply st_same; auto. intros b [K|[]]. discriminate.
  - exists [Done w]. apply st_say. discriminate.
Qed.
Lemma next_st l : forall d, uniq d -> exists x, st d (next l d) x.
Proof.
  induction l as [|t r IH]; intros d U; cbn [next]; [exists []; apply st_tasks|]. destruct (start_st t d U) as (x & P). destruct (grew_start t d U) as (z & G). destruct (start t d) as [d1 a]. cbn [fst] in *. destruct a.
  - destruct (IH d1 (grew_uniq _ _ _ G U)) as (u & Q). eexists. eapply st_trans; [exact P|exact Q].
  - eexists. eapply st_trans; [exact P|apply st_tasks].
Qed.
Lemma dispatch_st d : uniq d -> exists x, st d (dispatch d) x.
Proof.
  intro U. unfold dispatch. destruct (d_tasks d) as [|[ids| |w] r]; try (exists []; apply st_refl). destruct (group_done ids d); [|exists []; apply st_refl].
  destruct (next_st r (say [Ended ids] d) U) as (x & P). eexists. eapply st_trans; [|exact P]. apply st_say. discriminate.
Qed.
Lemma then_st d t : uniq d -> exists x, st d (andthen d t) x.
Proof.
  intro U. unfold andthen. destruct (d_tasks d); [|exists []; apply st_tasks]. destruct (start_st t d U) as (x & P). destruct (start t d) as [d1 a]. cbn [fst] in P. destruct a; [eauto|]. eexists. eapply st_trans; [exact P|apply st_tasks].
Qed.
Lemma thens_st l : forall d, uniq d -> exists x, st d (fold_left andthen l d) x.
Proof.
  induction l as [|t r IH]; intros d U; cbn; [exists []; apply st_refl|]. destruct (then_st d t U) as (x & P). destruct (grew_then d t U) as (z & G). destruct (IH _ (grew_uniq _ _ _ G U)) as (u & Q). eexists. eapply st_trans; [exact P|exact Q].
Qed.

(* ---- a step ---- *)
Definition begins (l : list ent) (d : dom) : Prop := forall e b, In e l -> vac e -> In (Begun b) (d_out d) -> In (e_id e) b -> exists e', In e' (d_ents d) /\ conf e' = conf e /\ length (e_inst e') = length (e_inst e) /\ forall i, In i (e_inst e') -> started (e_id e) (d_out d) i.
Lemma begins_st d1 d2 x : st d1 d2 x -> no_begun (d_out d1) -> begins (d_ents d1) d2.
Proof.
  intros [A B C] N e b J V K Kb. rewrite A in K. apply in_app_or in K as [K|K]; [exfalso; now apply (N b)|]. destruct (C e J V) as [[_ M]|(e' & X & Y & Z0 & W)]; [exfalso; now apply (M b)|]. exists e'. split; [auto|]. split; [auto|]. split; [auto|].
  intros i Ki. rewrite A. apply (started_more _ x); [apply incl_appr, incl_refl|auto].
Qed.
Lemma begins_say l e d : (forall b, e <> Begun b) -> begins l d -> begins l (say [e] d).
Proof.
  intros N B f b J V K Kb. cbn in K. apply in_app_or in K as [K|[K|[]]]; [|exfalso; now apply (N b)]. destruct (B f b J V K Kb) as (e' & X & Y & Z0 & W). exists e'. split; [auto|]. split; [auto|]. split; [auto|]. intros i Ki. apply (started_more _ (d_out d)); [cbn; apply incl_appl, incl_refl|auto].
Qed.
Lemma begins_quiet l d : no_begun (d_out d) -> begins l d.
Proof. intros N e b _ _ K. exfalso. now apply (N b). Qed.
Lemma join_begins c d : uniq d -> d_out d = [] -> begins (d_ents (join_first c d)) (join c d).
Proof.
  intros U O. destruct (join_pre_pre c d U) as (x0 & P & _). rewrite join_eq. destruct (dispatch_st (join_pre c d) (pre_uniq _ _ _ P U)) as (x & Q).
  assert (E : d_ents (join_pre c d) = d_ents (join_first c d) /\ no_begun (d_out (join_pre c d))).
  { rewrite join_pre_eq. pose proof (answer_all_books (d_look (join_first c d)) (join_first c d)) as A. destruct (answer_all _ _) as [d2 k]. cbn [fst] in *. destruct A as (_ & _ & _ & A & _ & z & C & D). split; [exact A|]. cbn [d_out set_look]. rewrite C. destruct (join_first_books c d) as (_ & _ & _ & Z). rewrite Z, O. cbn. now apply found_no_begun. }
  destruct E as [E N]. rewrite <- E. now apply (begins_st _ _ x).
Qed.
Lemma step_begins o i d d' ev : uniq d -> (forall p gs m es, i = Begin p gs m es -> NoDup (map e_id es)) -> i <> Terminate -> i <> Fatal -> (forall l, i <> ScaleTo l) -> step o i d = Some (d', ev) ->
  forall e b, In e (ents_of i d) -> vac e -> In (Begun b) ev -> In (e_id e) b -> exists e', In e' (d_ents d') /\ conf e' = conf e /\ length (e_inst e') = length (e_inst e) /\ forall x, In x (e_inst e') -> started (e_id e) ev x.
Proof.
  intros U B N1 N2 N3 H. unfold step in H. set (d0 := set_out [] (set_orc o d)) in *. destruct (handle i d0) as [d1|] eqn:E; [|discriminate]. injection H as <- <-. assert (U0 : uniq d0) by exact U.
  enough (G : begins (ents_of i d) d1) by exact G. destruct i; cbn [handle] in E; try (injection E as <-); try congruence; cbn [ents_of].
  - unfold boot. match goal with |- context [fold_left andthen ?l ?x] => assert (Ux : uniq x) by (exact (B _ _ _ _ eq_refl)); destruct (thens_st l x Ux) as (x1 & P); destruct (grew_thens l x Ux) as (z & G) end.
    match goal with |- context [andthen ?x TBoot] => destruct (then_st x TBoot (grew_uniq _ _ _ G Ux)) as (x2 & P2) end. exact (begins_st _ _ _ (st_trans _ _ _ _ _ P P2) no_begun_nil).
  - unfold exit. pose proof (pre_remove pid d0 U0) as P. change (d_ents (fst (remove pid d))) with (d_ents (fst (remove pid d))). assert (RE : d_ents (fst (remove pid d0)) = d_ents (fst (remove pid d))) by (rewrite !remove_ents; reflexivity).
    pose proof (remove_books pid d0) as (_ & _ & BO & _). rewrite <- RE. destruct (remove pid d0) as [d2 r]. cbn [fst] in *. pose proof (pre_uniq _ _ _ P U0) as U2.
    assert (G : exists x z, st d2 (match r with Some id => instances_id d2 id | None => d2 end) x /\ grew d2 (match r with Some id => instances_id d2 id | None => d2 end) z).
    { destruct r as [id|]; [destruct (id_st id d2 U2) as (x & Q & _); destruct (grew_id id d2 U2) as (z & G); eauto|exists [], []; split; [apply st_refl|apply grew_refl]]. }
    destruct G as (x & z & G1 & G2). destruct (dispatch_st _ (grew_uniq _ _ _ G2 U2)) as (u & Q). apply (begins_st _ _ _ (st_trans _ _ _ _ _ G1 Q)). rewrite BO. apply no_begun_nil.
  - unfold own. destruct (d_self d0) as [|[a l|l] r].
    + apply begins_quiet. apply no_begun_nil.
    + destruct (dispatch_st (set_self r d0) U0) as (u & Q). apply (begins_st _ _ _ Q). apply no_begun_nil.
    + apply begins_quiet. cbn. apply prepared_no_begun.
  - assert (J : forall x, d_ents x = d_ents d -> d_out x = [] -> begins (match server_of (c_pid c) d with Some e => put_in (ent_conn (c_pid c) (c_ipc c) e) (d_ents d) | None => d_ents d end) (say [Answer (c_pid c) (c_ipc c) true] (join c x))).
    { intros x X1 X2. apply begins_say; [discriminate|]. assert (Q : d_ents (join_first c x) = match server_of (c_pid c) d with Some e => put_in (ent_conn (c_pid c) (c_ipc c) e) (d_ents d) | None => d_ents d end) by (rewrite join_first_ents; unfold server_of; rewrite X1; reflexivity).
      rewrite <- Q. apply join_begins; [unfold uniq; rewrite X1; exact U|auto]. }
    unfold connect. change (d_level d0) with (d_level d). destruct (rank Running <? rank (d_level d)); [apply begins_quiet; intros b [K|[]]; discriminate|]. change (singleton) with (fun id d => option_map snd (find (fun x => fst x =? id) (d_sing d))). cbv beta. change (d_sing d0) with (d_sing d).
    destruct (c_sing c) as [id|]; [|apply J; destruct (c_white c); reflexivity]. destruct (option_map snd (find (fun x => fst x =? id) (d_sing d))); [|apply J; destruct (c_white c); reflexivity].
    apply begins_quiet. destruct (server_of (c_pid c) d0); [intros b [K|[]]; discriminate|]. destruct (exec_of (c_pid c) d0); intros b [K|[]]; discriminate.
  - unfold lookup. pose proof (answer_books l d0) as A. destruct (answer l d0) as [d2 b]. cbn [fst] in *. destruct A as (_ & _ & _ & _ & _ & x & C & D). destruct b; (apply begins_quiet; cbn [d_out set_look]; rewrite C; now apply found_no_begun).
  - apply begins_quiet. cbn. apply prepared_no_begun.
  - apply begins_quiet. unfold assassinate. destruct (severe && _); [intros b [K|[]]; discriminate|apply no_begun_nil].
Qed.
Lemma vac_put p (f f' e : ent) l : NoDup (map e_id l) -> In f l -> In e l -> vac e -> e_id f' = e_id f -> existsb (has_pid p) (e_inst f) = true -> In e (put_in f' l).
Proof.
  intros U Jf J V E X. apply in_put; [auto|]. rewrite E. intro Q. assert (e = f) by (apply (uniq_id l); auto). subst f. apply existsb_exists in X as (x & Jx & X). rewrite (proj2 V x Jx) in X. discriminate.
Qed.
Lemma vac_of i d e : uniq d -> NoDup (pids d) -> In e (d_ents d) -> vac e -> i <> Terminate -> i <> Fatal -> (forall l, i <> ScaleTo l) -> (forall p gs m es, i <> Begin p gs m es) -> In e (ents_of i d).
Proof.
  intros U N J V N1 N2 N3 N4. destruct i; cbn [ents_of]; auto; try congruence.
  - pose proof (exit_ents pid d e U N J) as X. destruct (existsb (has_pid pid) (e_inst e)) eqn:Q; [|exact X]. exfalso. apply existsb_exists in Q as (x & Jx & Q). rewrite (proj2 V x Jx) in Q. discriminate.
  - destruct (rank Running <? rank (d_level d)); [auto|]. destruct (match c_sing c with Some id => singleton id d | None => None end).
    + destruct (server_of (c_pid c) d) as [f|] eqn:F; [apply server_of_in in F as (Jf & _ & X); apply (vac_put (c_pid c) f); auto; pose proof (scale_to_conf 1 (ent_drop (c_pid c) f)) as SC; unfold conf in SC; cbn in SC; congruence|].
      destruct (exec_of (c_pid c) d) as [f|] eqn:F2; [apply exec_of_in in F2 as (Jf & _ & X); apply (vac_put (c_pid c) f); auto; pose proof (scale_to_conf 1 (ent_drop (c_pid c) f)) as SC; unfold conf in SC; cbn in SC; congruence|auto].
    + destruct (server_of (c_pid c) d) as [f|] eqn:F; [apply server_of_in in F as (Jf & _ & X); now apply (vac_put (c_pid c) f)|auto].
Qed.
Theorem batch_starts d0 h o i d ev b e : reach d0 h -> possible h o i -> step o i d0 = Some (d, ev) -> In (Begun b) ev -> In (e_id e) b -> e_on e = true -> (forall x, In x (e_inst e) -> x = Inst None None PRun) ->
  (In e (d_ents d0) \/ exists p gs m es, i = Begin p gs m es /\ In e es) -> i <> Terminate -> i <> Fatal -> (forall l, i <> ScaleTo l) ->
  exists e', In e' (d_ents d) /\ conf e' = conf e /\ length (e_inst e') = length (e_inst e) /\ forall x, In x (e_inst e') -> started (e_id e) ev x.
Proof.
  intros R P S K Kb On Va J N1 N2 N3. assert (V : vac e) by (split; auto). pose proof (k_rest _ _ (reach_kept _ _ R)) as (U & _). destruct (reach_procs _ _ R) as (ND & _ & _).
  apply (step_begins o i d0 d ev U (uniq_begin h o i P) N1 N2 N3 S e b); auto. destruct J as [J|(p & gs & m & es & -> & J)]; [|exact J].
  apply vac_of; auto. intros p gs m es ->. destruct P as [[-> _] _]. assert (Q : d0 = dom0) by (remember (@nil (input * list effect)) as hh eqn:Eh; destruct R as [|? h0]; [auto|destruct h0; discriminate]). subst d0. destruct J.
Qed.
