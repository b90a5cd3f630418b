(* The domain manager: what can't be spawned is in error, and isn't waited for. *)
From Coq Require Import ZArith List Bool Lia Permutation.
From Verif Require Import DomModel DomSpec DomBoot DomFrame DomMarks DomStep DomSeq DomTalk DomSing DomScale DomLook DomGrew DomProc DomPids DomKeep DomTold.
Import ListNotations.
Local Open Scope Z_scope.

Definition errd (id : Z) (d : dom) : Prop := exists e i, In e (d_ents d) /\ e_id e = id /\ In i (e_inst e) /\ i_want i = PErr.
Definition ok (d : dom) : Prop := forall id, In (Failed id) (d_out d) -> errd id d.
Lemma F2_right {A B} (P : A -> B -> Prop) l m a : Forall2 P l m -> In a l -> exists b, In b m /\ P a b.
Proof. induction 1 as [|x y l m H F IH]; [contradiction|]. intros [<-|J]; [exists y; cbn; auto|]. destruct (IH J) as (b & K & Q). exists b. cbn. auto. Qed.
Lemma errd_grew d d' x id : grew d d' x -> errd id d -> errd id d'.
Proof.
  intros G (e & i & J & K & I & W). destruct (F2_right _ _ _ e (g_ents _ _ _ G) J) as (e' & J' & C & F). destruct (F2_right _ _ _ i F I) as (i' & I' & X). exists e', i'. split; [auto|]. split; [unfold conf in C; congruence|]. split; [auto|].
  destruct X as [->|(_ & X & _)]; [auto|congruence].
Qed.
Lemma ok_grew d d' x : grew d d' x -> (forall id, In (Failed id) x -> errd id d') -> ok d -> ok d'.
Proof. intros G H O id J. rewrite (g_out _ _ _ G) in J. apply in_app_or in J as [J|J]; [apply (errd_grew _ _ _ _ G); auto|auto]. Qed.
Lemma ok_say e d : (forall id, e <> Failed id) -> ok d -> ok (say [e] d).
Proof. intros N O id J. cbn in J. apply in_app_or in J as [J|[J|[]]]; [now apply O|]. now apply N in J. Qed.
Lemma ok_none d : (forall id, ~ In (Failed id) (d_out d)) -> ok d.
Proof. intros N id J. now apply N in J. Qed.
Lemma ok_in e d : ok d -> ok (scale_in e d).
Proof.
  intro O. unfold scale_in. destruct (subrange _ _) as [[a r] c]. destruct r as [|x r]; [auto|]. destruct (e_kind e).
  - unfold shut. destruct (singleton sm d); [apply ok_say; [discriminate|auto]|exact O].
  - intros id J. cbn [say d_out set_out] in J. apply in_app_or in J as [J|J]; [now apply O|]. apply in_map_iff in J as (? & J & _). discriminate.
Qed.
Lemma spawns_failed id l : forall o l' ev o', spawns id l o = (l', ev, o') -> forall id', In (Failed id') ev -> id' = id /\ exists i, In i l' /\ i_want i = PErr.
Proof.
  induction l as [|i r IH]; intros o l' ev o'; cbn [spawns]; [intro H; injection H as <- <- <-; contradiction|]. intros H id' J.
  assert (K : forall x o2, (let '(l', ev, o'') := spawns id r x in (Inst (i_pid i) (i_ipc i) PErr :: l', Failed id :: ev, o'')) = (l', ev, o2) -> id' = id /\ exists i, In i l' /\ i_want i = PErr).
  { intros x o2 Q. destruct (spawns id r x) as [[u v] w] eqn:S. injection Q as <- <- <-. destruct J as [J|J]; [injection J as <-; split; [auto|]; eexists; split; [left; reflexivity|reflexivity]|]. destruct (IH _ _ _ _ S id' J) as (A & z & B & C). split; [auto|]. exists z. cbn. auto. }
  destruct o as [|[p|] o1]; [now apply K in H| |now apply K in H]. destruct (spawns id r o1) as [[u v] w] eqn:S. injection H as <- <- <-. destruct J as [J|J]; [discriminate|]. destruct (IH _ _ _ _ S id' J) as (A & z & B & C). split; [auto|]. exists z. cbn. auto.
Qed.
Lemma ok_out e d : uniq d -> In e (d_ents d) -> ok d -> ok (scale_out e d).
Proof.
  intros U J O. destruct (grew_scale_out e d U J) as (x & G). apply (ok_grew _ _ _ G); [|auto]. assert (X := g_out _ _ _ G). intros id F. revert X. unfold scale_out. destruct (match e_kind e with Server => e_on e | Exec => true end).
  2: { intro X. assert (x = []) by (apply (app_inv_head (d_out d)); now rewrite app_nil_r). subst x. contradiction. }
  destruct (subrange _ _) as [[a r] c]. destruct r as [|y r]. { intro X. assert (x = []) by (apply (app_inv_head (d_out d)); now rewrite app_nil_r). subst x. contradiction. }
  destruct (spawns (e_id e) (y :: r) (d_orc d)) as [[r' ev] o] eqn:S. cbn [push set_self set_orc say set_out put set_ents d_out d_ents]. intro X. apply app_inv_head in X. subst x. destruct (spawns_failed _ _ _ _ _ _ S id F) as (-> & i & I & W).
  exists (with_inst (a ++ r' ++ c) e), i. split; [|split; [reflexivity|split; [cbn; apply in_or_app; right; apply in_or_app; auto|auto]]]. cbn. apply in_map_iff. exists e. split; [now rewrite Z.eqb_refl|auto].
Qed.
Lemma ok_id id d : uniq d -> ok d -> ok (instances_id d id).
Proof.
  intros U O. unfold instances_id. destruct (entity id d) as [e|] eqn:E; [|auto]. apply entity_in in E as [J _]. unfold instances. destruct (scale_in_frame e d) as (x & _ & _ & A & _). apply ok_out; [unfold uniq; rewrite A; exact U|now rewrite A|now apply ok_in].
Qed.
Lemma ok_fold ids : forall d, uniq d -> ok d -> ok (fold_left instances_id ids d).
Proof. induction ids as [|i r IH]; intros d U O; cbn; [auto|]. destruct (grew_id i d U) as (z & G). apply IH; [apply (grew_uniq _ _ _ G U)|now apply ok_id]. Qed.
Lemma ok_start t d : uniq d -> ok d -> ok (fst (start t d)).
Proof.
  intros U O. destruct t as [ids| |w]; cbn [start fst].
  - assert (S : ok (fold_left instances_id ids (say [Begun ids] d))) by (apply ok_fold; [exact U|apply ok_say; [discriminate|auto]]). destruct (group_done ids _); cbn [fst]; [apply ok_say; [discriminate|auto]|auto].
  - apply (ok_say Booted (set_level Running d)); [discriminate|exact O].
  - apply ok_say; [discriminate|auto].
Qed.
Lemma ok_next l : forall d, uniq d -> ok d -> ok (next l d).
Proof.
  induction l as [|t r IH]; intros d U O; cbn [next]; [exact O|]. pose proof (ok_start t d U O) as S. destruct (grew_start t d U) as (z & G). destruct (start t d) as [d1 a]. cbn [fst] in *. destruct a; [apply IH; [apply (grew_uniq _ _ _ G U)|auto]|exact S].
Qed.
Lemma ok_dispatch d : uniq d -> ok d -> ok (dispatch d).
Proof. intros U O. unfold dispatch. destruct (d_tasks d) as [|[ids| |w] r]; auto. destruct (group_done ids d); [|auto]. apply ok_next; [exact U|apply ok_say; [discriminate|auto]]. Qed.
Lemma ok_then d t : uniq d -> ok d -> ok (andthen d t).
Proof. intros U O. unfold andthen. destruct (d_tasks d); [|exact O]. pose proof (ok_start t d U O) as S. destruct (start t d) as [d1 a]. cbn [fst] in S. destruct a; exact S. Qed.
Lemma ok_thens l : forall d, uniq d -> ok d -> ok (fold_left andthen l d).
Proof. induction l as [|t r IH]; intros d U O; cbn; [auto|]. destruct (grew_then d t U) as (z & G). apply IH; [apply (grew_uniq _ _ _ G U)|now apply ok_then]. Qed.
Lemma grew_thens_uniq l d : uniq d -> uniq (fold_left andthen l d).
Proof. intro U. destruct (grew_thens l d U) as (z & G). apply (grew_uniq _ _ _ G U). Qed.
Lemma ok_shutdown d : uniq d -> d_out d = [] -> ok (shutdown d).
Proof.
  intros U O. assert (U1 : uniq (down_pre d)) by (unfold uniq; rewrite (conf_ids _ _ (down_conf d)); exact U). rewrite shutdown_eq. apply ok_then; [now apply grew_thens_uniq|]. apply ok_thens; [auto|]. apply ok_none. unfold down_pre. cbn. rewrite O. intros id [].
Qed.
Lemma ok_join c d : uniq d -> d_out d = [] -> ok (join c d).
Proof.
  intros U O. destruct (join_pre_pre c d U) as (x0 & P & _). rewrite join_eq. apply ok_dispatch; [apply (pre_uniq _ _ _ P U)|]. apply ok_none. intros id.
  rewrite join_pre_eq. pose proof (answer_all_books (d_look (join_first c d)) (join_first c d)) as A. destruct (answer_all _ _) as [d2 k]. cbn [fst] in *. destruct A as (_ & _ & _ & _ & _ & z & C & D). cbn [d_out set_look]. rewrite C. destruct (join_first_books c d) as (_ & _ & _ & Z). rewrite Z, O. cbn. intro J. apply D in J as (? & ? & ? & ? & J). discriminate.
Qed.
Lemma step_ok o i d d' ev : uniq d -> (forall p gs m es, i = Begin p gs m es -> NoDup (map e_id es)) -> step o i d = Some (d', ev) -> forall id, In (Failed id) ev -> errd id d'.
Proof.
  intros U B H. unfold step in H. set (d0 := set_out [] (set_orc o d)) in *. destruct (handle i d0) as [d1|] eqn:E; [|discriminate]. injection H as <- <-. assert (U0 : uniq d0) by exact U.
  enough (G : ok d1) by exact G. assert (PN : forall l id, ~ In (Failed id) (map (fun h : Z * option Z => match snd h with Some q => Ask q | None => Term (fst h) end) l)) by (intros l id J; apply in_map_iff in J as ([p [q|]] & J & _); discriminate).
  assert (NN : forall d2 x, d_out d2 = [] ++ x -> (forall e, In e x -> exists a b c e', e = Found a b c e') -> forall id, ~ In (Failed id) (d_out d2)) by (intros d2 x -> D id J; apply D in J as (? & ? & ? & ? & J); discriminate).
  destruct i; cbn [handle] in E; try (injection E as <-).
  - specialize (B _ _ _ _ eq_refl). unfold boot. match goal with |- context [fold_left andthen ?l ?x] => assert (Ux : uniq x) by exact B; assert (Ox : ok x) by (apply ok_none; intros id []) end. apply ok_then; [now apply grew_thens_uniq|now apply ok_thens].
  - unfold exit. pose proof (pre_remove pid d0 U0) as P. pose proof (remove_books pid d0) as (_ & _ & BO & _). destruct (remove pid d0) as [d2 r]. cbn [fst] in *. pose proof (pre_uniq _ _ _ P U0) as U2.
    assert (O2 : ok d2) by (apply ok_none; rewrite BO; intros id []). destruct r as [id|]; [|now apply ok_dispatch]. apply ok_dispatch; [destruct (grew_id id d2 U2) as (z & G); apply (grew_uniq _ _ _ G U2)|now apply ok_id].
  - unfold own. destruct (d_self d0) as [|[a l|l] r]; [apply ok_none; intros id []|apply ok_dispatch; [exact U|apply ok_none; intros id []]|apply ok_none; apply PN].
  - assert (J : forall x, d_ents x = d_ents d -> d_out x = [] -> ok (say [Answer (c_pid c) (c_ipc c) true] (join c x))).
    { intros x X1 X2. apply ok_say; [discriminate|]. apply ok_join; [unfold uniq; rewrite X1; exact U|auto]. }
    assert (K : forall x, d_out x = [] -> ok (say [Answer (c_pid c) (c_ipc c) false] x)) by (intros x X2; apply ok_say; [discriminate|]; apply ok_none; rewrite X2; intros id []).
    unfold connect. destruct (rank Running <? rank (d_level d0)); [apply K; auto|]. destruct (c_sing c) as [id|]; [|apply J; destruct (c_white c); reflexivity]. destruct (singleton id d0); [|apply J; destruct (c_white c); reflexivity]. apply K.
    destruct (server_of (c_pid c) d0); [reflexivity|]. destruct (exec_of (c_pid c) d0); reflexivity.
  - unfold lookup. pose proof (answer_books l d0) as A. destruct (answer l d0) as [d2 b]. cbn [fst] in *. destruct A as (_ & _ & _ & A & _ & x & C & D). destruct b; apply ok_none; now apply (NN _ x).
  - apply ok_none. apply PN.
  - now apply ok_shutdown.
  - change (d_level d0) with (d_level d). destruct (d_level d); [apply ok_shutdown; auto|apply ok_none; intros id []..].
  - unfold scale_aliases in E. pose proof (scale_all_pre l (scalables d0 (map fst l)) d0) as SP. pose proof (scale_all_orc l (scalables d0 (map fst l)) d0) as SO. destruct (scale_all l (scalables d0 (map fst l)) d0) as [d2|]; [|discriminate]. cbn [option_map] in E. injection E as <-.
    assert (SC : forall e, In e (scalables d0 (map fst l)) -> In e (d_ents d0)) by (intros e; apply scalables_in).
    destruct (SO d2 eq_refl) as [_ SO2]. assert (U2 : uniq d2) by (apply (pre_uniq d0 _ []); [apply SP; auto; intros e J; exists e; auto|auto]). assert (O2 : ok d2) by (apply ok_none; rewrite SO2; intros id []).
    match goal with |- ok (andthen (andthen d2 ?t) ?u) => destruct (grew_then d2 t U2) as (z & G1) end. apply ok_then; [apply (grew_uniq _ _ _ G1 U2)|now apply ok_then].
  - unfold assassinate. apply ok_none. destruct (severe && _); [intros id [K|[]]; discriminate|intros id []].
Qed.
(* one that can't be spawned is in error *)
Theorem failed_errs d h i ev id : reach d (h ++ [(i, ev)]) -> In (Failed id) ev -> exists e x, In e (d_ents d) /\ e_id e = id /\ In x (e_inst e) /\ i_want x = PErr.
Proof.
  intros R J. apply reach_last in R as (d0 & o & R0 & P & S). destruct (step_ok o i d0 d ev (proj1 (k_rest _ _ (reach_kept _ _ R0)))) with (id := id) as (e & x & A); auto; [|exists e, x; auto].
  intros p gs m es ->. destruct P as [(_ & _ & X & _) _]; auto.
Qed.
