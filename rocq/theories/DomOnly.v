(* The domain manager: only the processes that are to end are told to, and what's to be prepared is sent to the service manager. *)
From Coq Require Import ZArith List Bool Lia Permutation.
From Verif Require Import DomModel DomSpec DomBoot DomFrame DomMarks DomStep DomSeq DomTalk DomSing DomLook DomGrew DomProc DomKeep DomDown DomTold.
Import ListNotations.
Local Open Scope Z_scope.

Definition fine (d : dom) (x : list effect) (y : list self) : Prop :=
  (forall f, In f x -> match f with Term p => must_end d p None | Ask _ => False | _ => True end) /\
  (forall s l, In (Prepare s l) x -> (exists p, singleton sm d = Some (p, s)) /\ forall p q, In (p, q) l -> must_end d p (Some q)) /\
  (forall l, In (MReply l) y -> singleton sm d = None /\ forall p q, In (p, q) l -> q <> None /\ must_end d p q).
Record fair (d d' : dom) (x : list effect) (y : list self) : Prop := Fair {
  f_out : d_out d' = d_out d ++ x; f_self : d_self d' = d_self d ++ y; f_sing : d_sing d' = d_sing d; f_ents : exists z, Forall2 (egrown z) (d_ents d) (d_ents d'); f_fine : fine d' x y }.
Lemma grown_still x id l l' i p : Forall2 (grown x id) l l' -> In i l -> i_pid i = Some p -> In i l'.
Proof. intros F J P. destruct (F2_in_l _ _ _ _ F J) as (i' & J' & [->|(N & _)]); [auto|congruence]. Qed.
Lemma must_end_grown z d d' p q : Forall2 (egrown z) (d_ents d) (d_ents d') -> must_end d p q -> must_end d' p q.
Proof.
  intros F (e & i & J & K & P & W & H). destruct (F2_in_l _ _ _ _ F J) as (e' & J' & C & Fi). assert (E : e_kind e' = e_kind e) by (unfold conf in C; congruence).
  exists e', i. split; [auto|]. split; [now apply (grown_still _ _ _ _ _ _ Fi K P)|]. rewrite E. auto.
Qed.
Lemma fine_nil d : fine d [] [].
Proof. split; [contradiction|]. split; contradiction. Qed.
Lemma fine_grown z d d' x y : Forall2 (egrown z) (d_ents d) (d_ents d') -> d_sing d' = d_sing d -> fine d x y -> fine d' x y.
Proof.
  intros F S (A & B & C). assert (E : singleton sm d' = singleton sm d) by (unfold singleton; now rewrite S). unfold fine. rewrite E. split; [|split].
  - intros f J. specialize (A f J). destruct f; auto. now apply (must_end_grown z d).
  - intros s l J. destruct (B s l J) as [B1 B2]. split; [auto|]. intros p q K. apply (must_end_grown z d); auto.
  - intros l J. destruct (C l J) as [B1 B2]. split; [auto|]. intros p q K. destruct (B2 p q K). split; [auto|]. apply (must_end_grown z d); auto.
Qed.
Lemma fine_app d x y u v : fine d x y -> fine d u v -> fine d (x ++ u) (y ++ v).
Proof.
  intros (A & B & C) (A2 & B2 & C2). split; [|split].
  - intros p J. apply in_app_or in J as [J|J]; [exact (A p J)|exact (A2 p J)].
  - intros s l J. apply in_app_or in J as [J|J]; auto.
  - intros l J. apply in_app_or in J as [J|J]; auto.
Qed.
Lemma fair_same d d' x : d_out d' = d_out d ++ x -> d_self d' = d_self d -> d_sing d' = d_sing d -> d_ents d' = d_ents d -> (forall f, In f x -> match f with Term _ | Prepare _ _ | Ask _ => False | _ => True end) -> fair d d' x [].
Proof.
  intros A B C D N. constructor; auto; [now rewrite app_nil_r|exists []; rewrite D; apply Forall2_same; intros; apply egrown_refl|]. split; [intros f J; pose proof (N f J) as Z; destruct f; try exact Logic.I; contradiction|]. split; [intros s l J; exfalso; exact (N _ J)|contradiction].
Qed.
Lemma fair_refl d : fair d d [] [].
Proof. apply fair_same; auto; [now rewrite app_nil_r|contradiction]. Qed.
Lemma fair_trans a b c x y u v : fair a b x y -> fair b c u v -> fair a c (x ++ u) (y ++ v).
Proof.
  intros [A1 A2 A3 (z & A4) A5] [B1 B2 B3 (w & B4) B5]. constructor.
  - now rewrite B1, A1, app_assoc.
  - now rewrite B2, A2, app_assoc.
  - congruence.
  - exists (z ++ w). apply (Forall2_trans' (egrown z) (egrown w) _ _ (d_ents b)); auto. intros p q r. apply egrown_trans.
  - apply fine_app; [|auto]. now apply (fine_grown w b).
Qed.
Lemma fair_say e d : match e with Term _ | Prepare _ _ | Ask _ => False | _ => True end -> fair d (say [e] d) [e] [].
Proof. intro H. apply fair_same; auto. intros f [<-|[]]. auto. Qed.
Lemma fair_tasks l d : fair d (set_tasks l d) [] [].
Proof. apply fair_same; auto; [cbn; now rewrite app_nil_r|contradiction]. Qed.
Lemma subrange_in {A} (p : A -> bool) l a r c x : subrange p l = (a, r, c) -> In x r -> In x l /\ p x = true.
Proof. intros S J. apply subrange_app in S as (E & _ & H & _). split; [rewrite E; apply in_or_app; right; apply in_or_app; now left|auto]. Qed.
Lemma in_fair e d : In e (d_ents d) -> exists x y, fair d (scale_in e d) x y.
Proof.
  intro J. unfold scale_in. destruct (subrange _ _) as [[a r] c] eqn:S. destruct r as [|z r]; [exists [], []; apply fair_refl|].
  assert (T : forall i, In i (rev (z :: r)) -> In i (e_inst e) /\ is_st (e_kind e) SScaleIn i = true) by (intros i K; apply (subrange_in _ _ _ _ _ _ S); now apply in_rev).
  set (rr := rev (z :: r)) in *. clearbody rr. destruct (e_kind e) eqn:K.
  - assert (Q : forall p q, In (p, q) (flat_map handle_of rr) -> must_end d p (Some q)).
    { intros p q H. apply in_flat_map in H as (i & H & G). destruct (T i H) as [T1 T2]. unfold handle_of in G. destruct (i_pid i) as [p'|] eqn:P; [|destruct G]. destruct (i_ipc i) as [q'|] eqn:P2; [|destruct G]. destruct G as [G|[]]. injection G as -> ->.
      exists e, i. split; [auto|]. split; [auto|]. split; [auto|]. split; [|auto]. unfold is_st, state_of in T2. rewrite P, P2 in T2. cbn in T2. destruct (i_want i); auto; discriminate. }
    unfold shut. destruct (singleton sm d) as [s|] eqn:G.
    + eexists. exists []. constructor; [reflexivity|cbn; now rewrite app_nil_r|reflexivity|exists []; apply Forall2_same; intros; apply egrown_refl|]. split; [intros f [<-|[]]; exact Logic.I|]. split; [|contradiction].
      intros s' l [H|[]]. injection H as <- <-. split; [exists (fst s); unfold singleton in *; cbn; rewrite G; now destruct s|exact Q].
    + exists []. eexists. constructor; [cbn; now rewrite app_nil_r|reflexivity|reflexivity|exists []; apply Forall2_same; intros; apply egrown_refl|]. split; [contradiction|]. split; [contradiction|].
      intros l [H|[]]. injection H as <-. split; [exact G|]. intros p q H. apply in_map_iff in H as ([p' q'] & H & I). injection H as <- <-. split; [discriminate|]. now apply Q.
  - eexists. exists []. constructor; [reflexivity|cbn; now rewrite app_nil_r|reflexivity|exists []; apply Forall2_same; intros; apply egrown_refl|]. split; [|split; [|contradiction]].
    + intros f H. apply in_map_iff in H as (p & <- & I). apply in_flat_map in I as (i & I & G). destruct (T i I) as [T1 T2]. unfold pid_of in G. destruct (i_pid i) as [p'|] eqn:P; [|destruct G]. destruct G as [->|[]].
      exists e, i. split; [auto|]. split; [auto|]. split; [auto|]. split; [|auto]. unfold is_st, state_of in T2. rewrite P in T2. cbn in T2. destruct (i_want i); auto; discriminate.
    + intros s l H. apply in_map_iff in H as (? & H & _). discriminate.
Qed.
Lemma out_fair e d : uniq d -> In e (d_ents d) -> exists x y, fair d (scale_out e d) x y.
Proof.
  intros U J. destruct (grew_scale_out e d U J) as (u & G).
  assert (V : exists x y, d_out (scale_out e d) = d_out d ++ x /\ d_self (scale_out e d) = d_self d ++ y /\ (forall f, In f x -> match f with Spawned _ _ | Failed _ => True | _ => False end) /\ forall l, ~ In (MReply l) y).
  { unfold scale_out. assert (N : exists (x : list effect) (y : list self), d_out d = d_out d ++ x /\ d_self d = d_self d ++ y /\ (forall f, In f x -> match f with Spawned _ _ | Failed _ => True | _ => False end) /\ forall l, ~ In (MReply l) y) by (exists [], []; rewrite !app_nil_r; split; [auto|split; [auto|split; [contradiction|auto]]]).
    destruct (match e_kind e with Server => e_on e | Exec => true end); [|exact N]. destruct (subrange _ _) as [[a r] c]. destruct r as [|z r]; [exact N|]. destruct (spawns _ _ _) as [[l' ev] o] eqn:S. apply spawns_out in S as (S & _). eexists. eexists. split; [reflexivity|]. split; [reflexivity|].
    split; [intros f K; pose proof (S f K) as Z; destruct f; (exact Logic.I || contradiction)|]. intros l0 [H|[]]. discriminate. }
  destruct V as (x & y & X & V & F & N). assert (S : d_sing (scale_out e d) = d_sing d) by (apply still_out). exists x, y. constructor; auto; [exists u; apply G|].
  split; [intros f K; pose proof (F f K) as Z; destruct f; (exact Logic.I || contradiction)|]. split; [intros s l K; exfalso; exact (F _ K)|]. intros l K. exfalso. now apply (N l).
Qed.
Lemma id_fair id d : uniq d -> exists x y, fair d (instances_id d id) x y.
Proof.
  intro U. unfold instances_id. destruct (entity id d) as [e|] eqn:E; [|exists [], []; apply fair_refl]. apply entity_in in E as [J _]. unfold instances. destruct (in_fair e d J) as (x & y & A). destruct (scale_in_frame e d) as (_ & _ & _ & I & _).
  destruct (out_fair e (scale_in e d)) as (u & v & B); [unfold uniq; now rewrite I|now rewrite I|]. eexists. eexists. eapply fair_trans; [exact A|exact B].
Qed.
Lemma fold_fair ids : forall d, uniq d -> exists x y, fair d (fold_left instances_id ids d) x y.
Proof.
  induction ids as [|id r IH]; intros d U; cbn [fold_left]; [exists [], []; apply fair_refl|]. destruct (id_fair id d U) as (x & y & A). destruct (grew_id id d U) as (z & G). destruct (IH _ (grew_uniq _ _ _ G U)) as (u & v & B). eexists. eexists. eapply fair_trans; [exact A|exact B].
Qed.
Lemma start_fair t d : uniq d -> exists x y, fair d (fst (start t d)) x y.
Proof.
  intro U. destruct t as [ids| |w]; cbn [start].
  - destruct (fold_fair ids (say [Begun ids] d) U) as (x & y & P). set (d1 := fold_left instances_id ids (say [Begun ids] d)) in *. pose proof (fair_say (Begun ids) d Logic.I) as Q.
    destruct (group_done ids d1); cbn [fst]; [|eexists; eexists; eapply fair_trans; [exact Q|exact P]]. eexists. eexists. eapply fair_trans; [eapply fair_trans; [exact Q|exact P]|]. apply fair_say. exact Logic.I.
  - exists [Booted], []. apply fair_same; auto. intros f [<-|[]]. exact Logic.I.
  - exists [Done w], []. apply fair_say. exact Logic.I.
Qed.
Lemma next_fair l : forall d, uniq d -> exists x y, fair d (next l d) x y.
Proof.
  induction l as [|t r IH]; intros d U; cbn [next]; [exists [], []; apply fair_tasks|]. destruct (start_fair t d U) as (x & y & P). destruct (grew_start t d U) as (z & G). destruct (start t d) as [d1 a]. cbn [fst] in *. destruct a.
  - destruct (IH d1 (grew_uniq _ _ _ G U)) as (u & v & Q). eexists. eexists. eapply fair_trans; [exact P|exact Q].
  - eexists. eexists. eapply fair_trans; [exact P|apply fair_tasks].
Qed.
Lemma dispatch_fair d : uniq d -> exists x y, fair d (dispatch d) x y.
Proof.
  intro U. unfold dispatch. destruct (d_tasks d) as [|[ids| |w] r]; try (exists [], []; apply fair_refl). destruct (group_done ids d); [|exists [], []; apply fair_refl].
  destruct (next_fair r (say [Ended ids] d) U) as (x & y & P). eexists. eexists. eapply fair_trans; [|exact P]. apply fair_say. exact Logic.I.
Qed.
Lemma then_fair d t : uniq d -> exists x y, fair d (andthen d t) x y.
Proof.
  intro U. unfold andthen. destruct (d_tasks d); [|exists [], []; apply fair_tasks]. destruct (start_fair t d U) as (x & y & P). destruct (start t d) as [d1 a]. cbn [fst] in P. destruct a; [eauto|]. eexists. eexists. eapply fair_trans; [exact P|apply fair_tasks].
Qed.
Lemma thens_fair l : forall d, uniq d -> exists x y, fair d (fold_left andthen l d) x y.
Proof.
  induction l as [|t r IH]; intros d U; cbn; [exists [], []; apply fair_refl|]. destruct (then_fair d t U) as (x & y & P). destruct (grew_then d t U) as (z & G). destruct (IH _ (grew_uniq _ _ _ G U)) as (u & v & Q). eexists. eexists. eapply fair_trans; [exact P|exact Q].
Qed.

(* ---- a step ---- *)
Definition quietly (x : list effect) : Prop := forall f, In f x -> match f with Term _ | Prepare _ _ | Ask _ => False | _ => True end.
(* [y]: what it says to itself while this input is handled *)
Definition clean (d : dom) (s0 : list self) : Prop := exists y, d_self d = s0 ++ y /\ fine d (d_out d) y.
Lemma clean_fair d1 d2 x y : fair d1 d2 x y -> quietly (d_out d1) -> clean d2 (d_self d1).
Proof.
  intros [A B C (z & D) E] Q. exists y. split; [auto|]. rewrite A. destruct E as (E1 & E2 & E3). split; [|split; [|exact E3]].
  - intros f J. apply in_app_or in J as [J|J]; [pose proof (Q f J) as Z; destruct f; (exact Logic.I || contradiction)|exact (E1 f J)].
  - intros s l J. apply in_app_or in J as [J|J]; [exfalso; exact (Q _ J)|auto].
Qed.
Lemma clean_quiet d : quietly (d_out d) -> clean d (d_self d).
Proof. intro Q. apply (clean_fair d d [] []); [apply fair_refl|auto]. Qed.
Lemma clean_say e d s0 : match e with Term _ | Prepare _ _ | Ask _ => False | _ => True end -> clean d s0 -> clean (say [e] d) s0.
Proof.
  intros N (y & A & B & C & D). exists y. split; [exact A|]. split; [|split; [|exact D]].
  - intros f J. cbn in J. apply in_app_or in J as [J|[J|[]]]; [exact (B f J)|subst e; destruct f; (exact Logic.I || contradiction)].
  - intros s l J. cbn in J. apply in_app_or in J as [J|[J|[]]]; [exact (C s l J)|subst e; contradiction].
Qed.
Lemma quiet_nil : quietly []. Proof. intros f []. Qed.
Lemma found_quiet x : (forall e, In e x -> exists a b c e', e = Found a b c e') -> quietly x.
Proof. intros H f J. apply H in J as (? & ? & ? & ? & ->). exact Logic.I. Qed.
Lemma shutdown_clean d : uniq d -> d_out d = [] -> clean (shutdown d) (d_self d).
Proof.
  intros U O. assert (U1 : uniq (down_pre d)) by (unfold uniq; rewrite (conf_ids _ _ (down_conf d)); exact U). rewrite shutdown_eq.
  match goal with |- context [fold_left andthen ?l ?x] => destruct (thens_fair l x U1) as (x1 & y1 & P); destruct (grew_thens l x U1) as (z & G) end. match goal with |- context [andthen ?x ?t] => destruct (then_fair x t (grew_uniq _ _ _ G U1)) as (x2 & y2 & P2) end.
  apply (clean_fair _ _ _ _ (fair_trans _ _ _ _ _ _ _ P P2)). unfold down_pre. cbn. rewrite O. apply quiet_nil.
Qed.
Lemma answer_self l d : d_self (fst (answer l d)) = d_self d.
Proof. unfold answer. destruct (l_id l) as [id|]; [destruct (singleton id d); [auto|]; destruct (direct l d); auto|]. destruct (l_proc l) as [p|]; [|auto]. cbv zeta. destruct ((_ && _) || _); auto. Qed.
Lemma answer_all_self ls : forall d, d_self (fst (answer_all ls d)) = d_self d.
Proof. induction ls as [|l r IH]; intro d; cbn [answer_all]; [auto|]. pose proof (answer_self l d) as A. destruct (answer l d) as [d1 b]. cbn [fst] in A. specialize (IH d1). destruct (answer_all r d1) as [d2 k]. cbn [fst] in *. congruence. Qed.
Lemma join_clean c d : uniq d -> d_out d = [] -> clean (join c d) (d_self d).
Proof.
  intros U O. destruct (join_pre_pre c d U) as (x0 & P & _). rewrite join_eq. destruct (dispatch_fair (join_pre c d) (pre_uniq _ _ _ P U)) as (x & y & Q). assert (S : d_self (join_pre c d) = d_self d).
  { rewrite join_pre_eq. pose proof (answer_all_self (d_look (join_first c d)) (join_first c d)) as A. destruct (answer_all _ _) as [d2 k]. cbn [fst] in *. cbn [d_self set_look]. rewrite A. unfold join_first. destruct (server_of _ d); auto. }
  rewrite <- S. apply (clean_fair _ _ _ _ Q).
  rewrite join_pre_eq. pose proof (answer_all_books (d_look (join_first c d)) (join_first c d)) as A. destruct (answer_all _ _) as [d2 k]. cbn [fst] in *. destruct A as (_ & _ & _ & _ & _ & z & C & D). cbn [d_out set_look]. rewrite C. destruct (join_first_books c d) as (_ & _ & _ & Z). rewrite Z, O. cbn. now apply found_quiet.
Qed.
Lemma remove_self p d : d_self (fst (remove p d)) = d_self d.
Proof.
  unfold remove. cbv zeta. destruct (server_of p _) as [e|].
  - destruct (e_restart e && _); cbn [fst]; [auto|]. destruct (exec_of p _) as [x|]; [|cbn; auto]. destruct (e_restart x && _); cbn; auto.
  - destruct (exec_of p _) as [x|]; [|cbn; auto]. destruct (e_restart x && _); cbn; auto.
Qed.
Lemma scale_all_self l es : forall d d', scale_all l es d = Some d' -> d_self d' = d_self d.
Proof. induction es as [|e r IH]; intros d d'; cbn [scale_all]; [intro H; injection H as <-; auto|]. destruct (find _ l) as [x|]; [|apply IH]. destruct (scale (snd x) e) as [e'|]; [|discriminate]. intro H. apply IH in H. exact H. Qed.
Definition own_before (i : input) (d : dom) : list self := match i with Begin _ _ _ _ => [] | Own => tl (d_self d) | _ => d_self d end.
Definition given (i : input) (d : dom) : Prop := match i with Prepared _ => True | Own => exists l r, d_self d = MReply l :: r | _ => False end.
Lemma step_clean o i d d' ev : uniq d -> (forall p gs m es, i = Begin p gs m es -> NoDup (map e_id es)) -> step o i d = Some (d', ev) -> ~ given i d ->
  exists y, d_self d' = own_before i d ++ y /\ fine d' ev y.
Proof.
  intros U B H N. unfold step in H. set (d0 := set_out [] (set_orc o d)) in *. destruct (handle i d0) as [d1|] eqn:E; [|discriminate]. injection H as <- <-. assert (U0 : uniq d0) by exact U.
  enough (G : clean d1 (own_before i d)) by exact G. destruct i; cbn [handle] in E; try (injection E as <-); cbn [own_before].
  - unfold boot. match goal with |- context [fold_left andthen ?l ?x] => assert (Ux : uniq x) by (exact (B _ _ _ _ eq_refl)); destruct (thens_fair l x Ux) as (x1 & y1 & P); destruct (grew_thens l x Ux) as (z & G) end.
    match goal with |- context [andthen ?x TBoot] => destruct (then_fair x TBoot (grew_uniq _ _ _ G Ux)) as (x2 & y2 & P2) end. apply (clean_fair _ _ _ _ (fair_trans _ _ _ _ _ _ _ P P2)). apply quiet_nil.
  - unfold exit. pose proof (pre_remove pid d0 U0) as P. pose proof (remove_self pid d0) as RS. pose proof (remove_books pid d0) as (_ & _ & BO & _). destruct (remove pid d0) as [d2 r]. cbn [fst] in *. pose proof (pre_uniq _ _ _ P U0) as U2.
    assert (G : exists x y z, fair d2 (match r with Some id => instances_id d2 id | None => d2 end) x y /\ grew d2 (match r with Some id => instances_id d2 id | None => d2 end) z).
    { destruct r as [id|]; [destruct (id_fair id d2 U2) as (x & y & Q); destruct (grew_id id d2 U2) as (z & G); eauto|exists [], [], []; split; [apply fair_refl|apply grew_refl]]. }
    destruct G as (x & y & z & G1 & G2). destruct (dispatch_fair _ (grew_uniq _ _ _ G2 U2)) as (u & v & Q). change (d_self d) with (d_self d0). rewrite <- RS. apply (clean_fair _ _ _ _ (fair_trans _ _ _ _ _ _ _ G1 Q)). rewrite BO. apply quiet_nil.
  - unfold own. change (d_self d0) with (d_self d). destruct (d_self d) as [|[a l|l] r] eqn:S.
    + exists []. split; [exact S|apply fine_nil].
    + destruct (dispatch_fair (set_self r d0) U0) as (u & v & Q). apply (clean_fair _ _ _ _ Q). apply quiet_nil.
    + exfalso. apply N. cbn. eauto.
  - assert (J : forall x, d_ents x = d_ents d -> d_out x = [] -> d_self x = d_self d -> clean (say [Answer (c_pid c) (c_ipc c) true] (join c x)) (d_self d)).
    { intros x X1 X2 X3. apply clean_say; [exact Logic.I|]. rewrite <- X3. apply join_clean; [unfold uniq; rewrite X1; exact U|auto]. }
    assert (K : forall x, d_out x = [] -> d_self x = d_self d -> clean (say [Answer (c_pid c) (c_ipc c) false] x) (d_self d)) by (intros x X1 X2; apply clean_say; [exact Logic.I|]; rewrite <- X2; apply clean_quiet; rewrite X1; apply quiet_nil).
    unfold connect. destruct (rank Running <? rank (d_level d0)); [apply K; auto|]. destruct (c_sing c) as [id|]; [|apply J; destruct (c_white c); reflexivity]. destruct (singleton id d0); [|apply J; destruct (c_white c); reflexivity].
    apply K; destruct (server_of (c_pid c) d0); try reflexivity; destruct (exec_of (c_pid c) d0); reflexivity.
  - unfold lookup. pose proof (answer_books l d0) as A. pose proof (answer_self l d0) as AS. destruct (answer l d0) as [d2 b]. cbn [fst] in *. destruct A as (_ & _ & _ & _ & _ & x & C & D). change (d_self d) with (d_self d0). rewrite <- AS.
    destruct b; [apply clean_quiet|change (d_self d2) with (d_self (set_look (d_look d2 ++ [l]) d2)); apply clean_quiet]; (cbn [d_out set_look]; rewrite C; now apply found_quiet).
  - exfalso. apply N. exact Logic.I.
  - now apply (shutdown_clean d0).
  - change (d_level d0) with (d_level d). destruct (d_level d); [apply (shutdown_clean (set_level Error d0)); auto|apply (clean_quiet d0); apply quiet_nil..].
  - unfold scale_aliases in E. pose proof (scale_all_pre l (scalables d0 (map fst l)) d0) as SP. pose proof (scale_all_self l (scalables d0 (map fst l)) d0) as SS. pose proof (scale_all_orc l (scalables d0 (map fst l)) d0) as SO. destruct (scale_all l (scalables d0 (map fst l)) d0) as [d2|]; [|discriminate]. cbn [option_map] in E. injection E as <-.
    assert (SC : forall e, In e (scalables d0 (map fst l)) -> In e (d_ents d0)) by (intros e; apply scalables_in).
    destruct (SO d2 eq_refl) as [_ SO2]. assert (U2 : uniq d2) by (apply (pre_uniq d0 _ []); [apply SP; auto; intros e J; exists e; auto|auto]).
    match goal with |- context [andthen (andthen d2 ?t) ?u] => destruct (then_fair d2 t U2) as (x & y & P1); destruct (grew_then d2 t U2) as (z & G1); destruct (then_fair (andthen d2 t) u (grew_uniq _ _ _ G1 U2)) as (x2 & y2 & P2) end.
    change (d_self d) with (d_self d0). rewrite <- (SS d2 eq_refl). apply (clean_fair _ _ _ _ (fair_trans _ _ _ _ _ _ _ P1 P2)). rewrite SO2. apply quiet_nil.
  - unfold assassinate. destruct (severe && _); [apply clean_say; [exact Logic.I|]|]; apply (clean_quiet d0); apply quiet_nil.
Qed.

(* ---- the history ---- *)
Definition seen (h : history) (p q : Z) : Prop := exists d1 a b, h = a ++ b /\ reach d1 a /\ must_end d1 p (Some q).
Definition kept_self (d : dom) (h : history) : Prop := forall l p q, In (MReply l) (d_self d) -> In (p, q) l -> exists q', q = Some q' /\ seen h p q'.
Lemma seen_more h x p q : seen h p q -> seen (h ++ x) p q.
Proof. intros (d1 & a & b & -> & R & M). exists d1, a, (b ++ x). rewrite <- app_assoc. auto. Qed.
Lemma uniq_begin h o i : possible h o i -> forall p gs m es, i = Begin p gs m es -> NoDup (map e_id es).
Proof. intros P p gs m es ->. destruct P as [[_ P] _]. apply P. Qed.
Lemma own_step o d l r d' ev : d_self d = MReply l :: r -> step o Own d = Some (d', ev) -> d_self d' = r /\ ev = map (fun h : Z * option Z => match snd h with Some q => Ask q | None => Term (fst h) end) l.
Proof. intros S H. unfold step in H. cbn [handle option_map] in H. unfold own in H. cbn [d_self set_out set_orc] in H. rewrite S in H. cbn in H. injection H as <- <-. auto. Qed.
Lemma prep_step o d l d' ev : step o (Prepared l) d = Some (d', ev) -> d_self d' = d_self d.
Proof. intro H. unfold step in H. cbn [handle option_map prepared] in H. injection H as <- <-. auto. Qed.
Lemma given_dec i d : given i d \/ ~ given i d.
Proof. destruct i; cbn; auto. destruct (d_self d) as [|[a l|l] r]; [right; intros (l & r & H); discriminate|right; intros (l' & r' & H); discriminate|left; eauto]. Qed.
Lemma reach_self d h : reach d h -> kept_self d h.
Proof.
  intro R. pose proof R as R1. induction R as [|d h o i d' ev R IH P S]; [intros l p q []|]. specialize (IH R). intros l p q J K. assert (OLD : In (MReply l) (d_self d) -> exists q', q = Some q' /\ seen (h ++ [(i, ev)]) p q').
  { intro J0. destruct (IH l p q J0 K) as (q' & E & Q). exists q'. split; [auto|now apply seen_more]. }
  destruct (given_dec i d) as [G|G].
  - destruct i; try contradiction.
    + destruct G as (l0 & r & E). destruct (own_step _ _ _ _ _ _ E S) as [A _]. apply OLD. rewrite E, <- A. now right.
    + apply OLD. now rewrite <- (prep_step _ _ _ _ _ S).
  - destruct (step_clean o i d d' ev) as (y & A & _ & _ & F); auto; [apply (k_rest _ _ (reach_kept _ _ R))|now apply (uniq_begin h o)|]. rewrite A in J. apply in_app_or in J as [J|J].
    + apply OLD. destruct i; cbn [own_before] in J; auto; [destruct J|]. destruct (d_self d); [destruct J|now right].
    + destruct (F l J) as [_ F2]. destruct (F2 p q K) as [N M]. destruct q as [q|]; [|congruence]. exists q. split; [auto|]. exists d', (h ++ [(i, ev)]), []. rewrite app_nil_r. auto.
Qed.
(* a process is told to end only when it's to end, or the service manager says that it has prepared it *)
Theorem term_only d h i ev p : reach d (h ++ [(i, ev)]) -> In (Term p) ev -> must_end d p None \/ exists l, i = Prepared l /\ In (p, None) l.
Proof.
  intros R J. apply reach_last in R as (d0 & o & R0 & P & S). destruct (given_dec i d0) as [G|G].
  - destruct i; try contradiction.
    + destruct G as (l & r & E). destruct (own_step _ _ _ _ _ _ E S) as [_ A]. rewrite A in J. apply in_map_iff in J as ([p' q'] & J & K). exfalso. destruct (reach_self d0 h R0 l p' q') as (q & -> & _); [rewrite E; now left|auto|]. discriminate.
    + right. pose proof S as S1. unfold step in S1. cbn [handle option_map prepared] in S1. injection S1 as _ <-. cbn in J. apply in_map_iff in J as ([p' q'] & J & K). destruct q'; [discriminate|]. injection J as ->. eauto.
  - left. destruct (step_clean o i d0 d ev) as (y & _ & A & _ & _); auto; [apply (k_rest _ _ (reach_kept _ _ R0))|now apply (uniq_begin h o)|]. exact (A _ J).
Qed.
Theorem ask_only d h i ev q : reach d (h ++ [(i, ev)]) -> In (Ask q) ev -> (exists l p, i = Prepared l /\ In (p, Some q) l) \/ i = Own /\ exists d1 a b p, h = a ++ b /\ reach d1 a /\ must_end d1 p (Some q).
Proof.
  intros R J. apply reach_last in R as (d0 & o & R0 & P & S). destruct (given_dec i d0) as [G|G].
  - destruct i; try contradiction.
    + right. split; [auto|]. destruct G as (l & r & E). destruct (own_step _ _ _ _ _ _ E S) as [_ A]. rewrite A in J. apply in_map_iff in J as ([p' q'] & J & K). destruct (reach_self d0 h R0 l p' q') as (q2 & -> & d1 & a & b & X); [rewrite E; now left|auto|]. cbn in J. injection J as ->. exists d1, a, b, p'. auto.
    + left. pose proof S as S1. unfold step in S1. cbn [handle option_map prepared] in S1. injection S1 as _ <-. cbn in J. apply in_map_iff in J as ([p' q'] & J & K). destruct q'; [|discriminate]. injection J as ->. eauto.
  - exfalso. destruct (step_clean o i d0 d ev) as (y & _ & A & _ & _); auto; [apply (k_rest _ _ (reach_kept _ _ R0))|now apply (uniq_begin h o)|]. exact (A _ J).
Qed.
Theorem prepares_only d h i ev s l : reach d (h ++ [(i, ev)]) -> In (Prepare s l) ev -> forall p q, In (p, q) l -> must_end d p (Some q).
Proof.
  intros R J. apply reach_last in R as (d0 & o & R0 & P & S). destruct (given_dec i d0) as [G|G].
  - exfalso. destruct i; try contradiction.
    + destruct G as (l0 & r & E). destruct (own_step _ _ _ _ _ _ E S) as [_ A]. rewrite A in J. apply in_map_iff in J as ([p' [q'|]] & J & _); discriminate.
    + unfold step in S. cbn [handle option_map prepared] in S. injection S as _ <-. cbn in J. apply in_map_iff in J as ([p' [q'|]] & J & _); discriminate.
  - destruct (step_clean o i d0 d ev) as (y & _ & _ & A & _); auto; [apply (k_rest _ _ (reach_kept _ _ R0))|now apply (uniq_begin h o)|]. now apply (A s l J).
Qed.
Theorem prepares_at d h i ev s l : reach d (h ++ [(i, ev)]) -> connects_once (h ++ [(i, ev)]) -> In (Prepare s l) ev -> exists p, holds 0 p s (h ++ [(i, ev)]).
Proof.
  intros R C J. pose proof R as R1. apply reach_last in R as (d0 & o & R0 & P & S). destruct (given_dec i d0) as [G|G].
  - exfalso. destruct i; try contradiction.
    + destruct G as (l0 & r & E). destruct (own_step _ _ _ _ _ _ E S) as [_ A]. rewrite A in J. apply in_map_iff in J as ([p' [q'|]] & J & _); discriminate.
    + unfold step in S. cbn [handle option_map prepared] in S. injection S as _ <-. cbn in J. apply in_map_iff in J as ([p' [q'|]] & J & _); discriminate.
  - destruct (step_clean o i d0 d ev) as (y & _ & _ & A & _); auto; [apply (k_rest _ _ (reach_kept _ _ R0))|now apply (uniq_begin h o)|]. destruct (A s l J) as [(p & B) _]. exists p.
    apply (proj2 (sing_exact d _ R1 C)). unfold singleton in B. destruct (find _ _) as [[k v]|] eqn:F; [|discriminate]. apply find_some in F as [F1 F2]. cbn in F2. apply Z.eqb_eq in F2. subst k. cbn in B. injection B as ->. exact F1.
Qed.
