(* The domain manager: lookups of processes. *)
From Coq Require Import ZArith List Bool Lia.
From Verif Require Import DomModel DomSpec DomBoot DomFrame DomMarks DomStep DomSeq DomTalk DomSing.
Import ListNotations.
Local Open Scope Z_scope.

Definition corrs (k : Z) (l : list look) : nat := length (filter (fun x => l_corr x =? k) l).
Lemma corrs_app k a b : corrs k (a ++ b) = (corrs k a + corrs k b)%nat.
Proof. unfold corrs. now rewrite filter_app, app_length. Qed.
Lemma count_app p a b : count p (a ++ b) = (count p a + count p b)%nat.
Proof. unfold count. now rewrite filter_app, app_length. Qed.
Lemma found_talk k l : count (is_found k) l = count (is_found k) (filter talk l).
Proof. unfold count. induction l as [|e l IH]; [auto|]. destruct e; cbn; auto. destruct (corr =? k); cbn; auto. Qed.
Lemma still_found k d d' : still d d' -> count (is_found k) (d_out d') = count (is_found k) (d_out d).
Proof. intro S. rewrite found_talk, (t_out _ _ S), <- found_talk. auto. Qed.
(* an answer, or none *)
Lemma answer_found k l d : (count (is_found k) (d_out (fst (answer l d))) + corrs k (if snd (answer l d) then [] else [l]) <= count (is_found k) (d_out d) + corrs k [l])%nat.
Proof.
  assert (Y : forall a b, (count (is_found k) (d_out (say [Found (l_ipc l) (l_corr l) a b] d)) + corrs k [] <= count (is_found k) (d_out d) + corrs k [l])%nat).
  { intros a b. unfold say. cbn [d_out set_out]. rewrite count_app. unfold count, corrs. cbn. destruct (l_corr l =? k); cbn; lia. }
  unfold answer. destruct (l_id l) as [id|].
  - destruct (singleton id d); cbn [fst snd]; [apply Y|]. destruct (direct l d); cbn [fst snd]; [apply Y|lia].
  - destruct (l_proc l); [|cbn [fst snd]; change (corrs k []) with 0%nat; lia]. cbv zeta. destruct (_ || _); cbn [fst snd]; [apply Y|lia].
Qed.
Lemma answer_all_found k ls : forall d, (count (is_found k) (d_out (fst (answer_all ls d))) + corrs k (snd (answer_all ls d)) <= count (is_found k) (d_out d) + corrs k ls)%nat.
Proof.
  induction ls as [|l r IH]; intro d; cbn [answer_all fst snd]; [lia|]. pose proof (answer_found k l d) as A. destruct (answer l d) as [d1 b]. cbn [fst snd] in A. specialize (IH d1). destruct (answer_all r d1) as [d2 ks]. cbn [fst snd] in *.
  change (l :: r) with ([l] ++ r). rewrite (corrs_app k [l] r). assert (E : corrs k (if b then ks else l :: ks) = (corrs k (if b then [] else [l]) + corrs k ks)%nat) by (destruct b; [auto|change (l :: ks) with ([l] ++ ks); now rewrite corrs_app]). lia.
Qed.
Lemma join_found k c d : (count (is_found k) (d_out (join c d)) + corrs k (d_look (join c d)) <= count (is_found k) (d_out d) + corrs k (d_look d))%nat.
Proof.
  rewrite join_eq. pose proof (still_dispatch (join_pre c d)) as S. rewrite (t_look _ _ S), (still_found k _ _ S), join_pre_eq. destruct (join_first_books c d) as (_ & _ & J3 & J4).
  pose proof (answer_all_found k (d_look (join_first c d)) (join_first c d)) as A. destruct (answer_all _ _) as [d2 ks]. cbn [fst snd] in A. cbn [d_out d_look set_look]. rewrite J3, J4 in A. exact A.
Qed.
Lemma corrs_filter k p l : (corrs k (filter p l) <= corrs k l)%nat.
Proof. unfold corrs. induction l as [|x l IH]; cbn; [lia|]. destruct (p x); cbn; destruct (l_corr x =? k); cbn; lia. Qed.
Lemma asks_count k l : (count (is_found k) (map (fun h : Z * option Z => match snd h with Some q => Ask q | None => Term (fst h) end) l) = 0)%nat.
Proof. unfold count. induction l as [|[p [q|]] l IH]; cbn; auto. Qed.
Lemma step_found k o i d d' ev : step o i d = Some (d', ev) -> (count (is_found k) ev + corrs k (d_look d') <= corrs k (d_look d) + match i with Lookup l => if (l_corr l =? k)%Z then 1 else 0 | _ => 0 end)%nat.
Proof.
  intro H. unfold step in H. set (d0 := set_out [] (set_orc o d)) in *. destruct (handle i d0) as [d1|] eqn:E; [|discriminate]. injection H as <- <-. cbn [d_look set_out]. assert (O : count (is_found k) (d_out d0) = 0%nat) by reflexivity.
  change (d_look d) with (d_look d0). destruct i; cbn [handle] in E; try (injection E as <-).
  - match goal with |- context [boot ?x] => pose proof (still_boot x) as S end. rewrite (still_found k _ _ S), (t_look _ _ S). cbn. lia.
  - destruct (exit_books pid d0) as (_ & A & B). rewrite A, found_talk, B, <- found_talk, O. pose proof (corrs_filter k (fun l => negb (l_pid l =? pid)) (d_look d0)). lia.
  - unfold own. destruct (d_self d0) as [|[a l|l] r]; [lia| |].
    + pose proof (still_dispatch (set_self r d0)) as S. rewrite (still_found k _ _ S), (t_look _ _ S). cbn [d_out d_look set_self]. lia.
    + unfold prepared, say. cbn [d_out d_look set_self set_out]. rewrite count_app, O, asks_count. lia.
  - unfold connect. destruct (rank Running <? rank (d_level d0)); [unfold say; cbn [d_out d_look set_out]; rewrite count_app, O; cbn; lia|].
    assert (J : forall x, d_out x = d_out d0 -> d_look x = d_look d0 -> (count (is_found k) (d_out (say [Answer (c_pid c) (c_ipc c) true] (join c x))) + corrs k (d_look (say [Answer (c_pid c) (c_ipc c) true] (join c x))) <= corrs k (d_look d0) + 0)%nat).
    { intros x X1 X2. unfold say. cbn [d_out d_look set_out]. rewrite count_app. pose proof (join_found k c x) as F. rewrite X1, X2 in F. cbn [count filter is_found length]. change (count (is_found k) [Answer (c_pid c) (c_ipc c) true]) with 0%nat. lia. }
    destruct (c_sing c) as [id|]; [|apply J; destruct (c_white c); reflexivity]. destruct (singleton id d0); [|apply J; destruct (c_white c); reflexivity].
    destruct (server_of (c_pid c) d0); [cbn; lia|]. destruct (exec_of (c_pid c) d0); cbn; lia.
  - unfold lookup. pose proof (answer_found k l d0) as A. pose proof (answer_books l d0) as B. destruct (answer l d0) as [d2 b]. cbn [fst snd] in *. destruct B as (_ & _ & B & _).
    assert (E1 : corrs k [l] = if l_corr l =? k then 1%nat else 0%nat) by (unfold corrs; cbn; destruct (l_corr l =? k); auto). rewrite E1 in A. destruct b; cbn [set_look d_look d_out]; [rewrite B|rewrite corrs_app, B]; try rewrite E1; try lia.
  - unfold prepared, say. cbn [d_out d_look set_out]. rewrite count_app, O, asks_count. lia.
  - destruct (shutdown_still d0) as (_ & _ & A & _ & B). rewrite A, found_talk, B, <- found_talk, O. lia.
  - destruct (d_level d) eqn:L; try (rewrite O; lia). destruct (shutdown_still (set_level Error d0)) as (_ & _ & A & _ & B). rewrite A, found_talk, B, <- found_talk. change (count (is_found k) (d_out (set_level Error d0))) with (count (is_found k) (d_out d0)). rewrite O. cbn [set_level d_look]. lia.
  - apply still_aliases in E. rewrite (still_found k _ _ E), (t_look _ _ E). lia.
  - unfold assassinate. destruct (severe && _); cbn; lia.
Qed.
Theorem lookup_once d h k : reach d h -> (count (is_found k) (effects h) <= asked k h)%nat.
Proof.
  intro R. enough (G : (count (is_found k) (effects h) + corrs k (d_look d) <= asked k h)%nat) by lia. induction R as [|d h o i d' ev R IH P S]; [cbn; lia|].
  rewrite effects_app, effects_one, count_app. unfold asked in *. rewrite inputs_app, filter_app, app_length. pose proof (step_found k o i d d' ev S) as F. destruct i; cbn [inputs map filter length fst] in *; try lia. destruct (l_corr l =? k); cbn [length]; lia.
Qed.

(* ---- what's kept waits ---- *)
Lemma answer_false l d : snd (answer l d) = false -> match l_id l with Some id => singleton id d = None | None => match l_proc l with Some p => fst (lookup_pid p d) = None \/ snd (lookup_pid p d) = None | None => False end end /\ direct l d = false.
Proof.
  unfold answer. destruct (l_id l) as [id|].
  - destruct (singleton id d); [discriminate|]. destruct (direct l d); [discriminate|auto].
  - destruct (l_proc l) as [p|]; [|discriminate]. cbv zeta. destruct (direct l d); [rewrite orb_true_r; discriminate|]. rewrite orb_false_r. destruct (lookup_pid p d) as [[a|] [b|]]; cbn; try discriminate; auto.
Qed.
Lemma answer_true l d : asks_for l -> snd (answer l d) = true -> exists p q, d_out (fst (answer l d)) = d_out d ++ [Found (l_ipc l) (l_corr l) p q].
Proof.
  unfold answer, asks_for. intro A. destruct (l_id l) as [id|].
  - destruct (singleton id d) as [h|]; [cbn; eauto|]. destruct (direct l d); [cbn; eauto|discriminate].
  - destruct (l_proc l) as [p|]; [|destruct A as [A|A]; contradiction]. cbv zeta. destruct (_ || _); [cbn; eauto|discriminate].
Qed.
(* answers don't depend on those before *)
Lemma answer_same l d d' : d_sing d' = d_sing d -> d_level d' = d_level d -> d_ents d' = d_ents d -> d_grand d' = d_grand d -> snd (answer l d') = snd (answer l d).
Proof.
  intros A B C D. unfold answer, singleton, direct, lookup_pid, server_of. rewrite A, B, C, D. destruct (l_id l) as [id|].
  - destruct (option_map _ _); [auto|]. destruct (_ || _); auto.
  - destruct (l_proc l); [|auto]. cbv zeta. destruct (_ || _); auto.
Qed.
Lemma answer_all_each l ls : forall d, In l ls -> if snd (answer l d) then asks_for l -> exists p q, In (Found (l_ipc l) (l_corr l) p q) (d_out (fst (answer_all ls d))) else In l (snd (answer_all ls d)).
Proof.
  induction ls as [|x r IH]; intros d J; [contradiction|]. cbn [answer_all]. pose proof (answer_books x d) as B. pose proof (answer_true x d) as T. pose proof (fun A B C D => answer_same l d (fst (answer x d)) A B C D) as SM.
  destruct (answer x d) as [d1 b] eqn:EX. cbn [fst snd] in *. destruct B as (B1 & B2 & B3 & B4 & B5 & y & B6 & B7). specialize (SM B1 B2 B4 B5). pose proof (answer_all_books r d1) as C. specialize (IH d1). destruct (answer_all r d1) as [d2 ks] eqn:ER. cbn [fst snd] in *.
  destruct C as (_ & _ & _ & _ & _ & z & C & _). destruct J as [-> |J].
  - rewrite EX. cbn [snd]. destruct b; [|cbn; auto]. intro A. destruct (T A eq_refl) as (p & q & E). exists p, q. rewrite C, E. rewrite <- app_assoc. apply in_or_app. right. cbn. auto.
  - specialize (IH J). rewrite SM in IH. destruct (snd (answer l d)); [auto|]. destruct b; [auto|cbn; auto].
Qed.
(* all that are left have no answer *)
Lemma answer_all_left l ls : forall d, In l (snd (answer_all ls d)) -> In l ls /\ snd (answer l d) = false.
Proof.
  induction ls as [|x r IH]; intros d J; [contradiction|]. cbn [answer_all] in J. pose proof (answer_books x d) as B. pose proof (fun A B C D => answer_same l d (fst (answer x d)) A B C D) as SM.
  destruct (answer x d) as [d1 b] eqn:EX. cbn [fst snd] in *. destruct B as (B1 & B2 & B3 & B4 & B5 & _). specialize (SM B1 B2 B4 B5). specialize (IH d1). destruct (answer_all r d1) as [d2 ks]. cbn [fst snd] in *.
  destruct b; [apply IH in J as [J K]; split; [cbn; auto|congruence]|]. destruct J as [<-|J]; [split; [cbn; auto|now rewrite EX]|]. apply IH in J as [J K]. split; [cbn; auto|congruence].
Qed.
Lemma found_in_talk d d' a b c e : filter talk (d_out d') = filter talk (d_out d) -> In (Found a b c e) (d_out d) -> In (Found a b c e) (d_out d').
Proof. intros E J. apply (proj1 (filter_In talk _ (d_out d'))). rewrite E. apply filter_In. auto. Qed.
Lemma join_each c d l : In l (d_look d) -> if snd (answer l (join_first c d)) then asks_for l -> exists p q, In (Found (l_ipc l) (l_corr l) p q) (d_out (join c d)) else In l (d_look (join c d)).
Proof.
  intro J. rewrite join_eq. pose proof (still_dispatch (join_pre c d)) as S. rewrite (t_look _ _ S). destruct (join_first_books c d) as (_ & _ & J3 & _). rewrite <- J3 in J. pose proof (answer_all_each l _ (join_first c d) J) as A. rewrite join_pre_eq in *.
  destruct (answer_all (d_look (join_first c d)) (join_first c d)) as [d2 ks] eqn:E. cbn [fst snd] in A. cbn [d_look set_look]. destruct (snd (answer l (join_first c d))); [|auto]. intro K. destruct (A K) as (p & q & X). exists p, q.
  apply (found_in_talk _ _ _ _ _ _ (t_out _ _ S)). exact X.
Qed.
Lemma step_waits o i d d' ev l : step o i d = Some (d', ev) -> (forall p gs m es, i <> Begin p gs m es) -> In l (d_look d) -> asks_for l -> In l (d_look d') \/ (exists p q, In (Found (l_ipc l) (l_corr l) p q) ev) \/ i = Exit (l_pid l).
Proof.
  intros H NB J K. unfold step in H. set (d0 := set_out [] (set_orc o d)) in *. destruct (handle i d0) as [d1|] eqn:E; [|discriminate]. injection H as <- <-. cbn [d_look set_out].
  change (d_look d) with (d_look d0) in J. destruct i; cbn [handle] in E; try (injection E as <-).
  - exfalso. now apply (NB pid gs mgr es).
  - destruct (exit_books pid d0) as (_ & A & _). rewrite A. destruct (l_pid l =? pid) eqn:P; [apply Z.eqb_eq in P; subst; auto|]. left. apply filter_In. now rewrite P.
  - left. unfold own. destruct (d_self d0) as [|[a x|x] r]; [auto| |auto]. pose proof (still_dispatch (set_self r d0)) as S. now rewrite (t_look _ _ S).
  - unfold connect. destruct (rank Running <? rank (d_level d0)); [auto|].
    assert (G : forall x, d_look x = d_look d0 -> In l (d_look (say [Answer (c_pid c) (c_ipc c) true] (join c x))) \/ (exists p q, In (Found (l_ipc l) (l_corr l) p q) (d_out (say [Answer (c_pid c) (c_ipc c) true] (join c x)))) \/ Connect c = Exit (l_pid l)).
    { intros x X. rewrite <- X in J. pose proof (join_each c x l J) as A. destruct (snd (answer l (join_first c x))); [|left; exact A]. right. left. destruct (A K) as (p & q & F). exists p, q. cbn. apply in_or_app. auto. }
    destruct (c_sing c) as [id|]; [|apply G; destruct (c_white c); reflexivity]. destruct (singleton id d0); [|apply G; destruct (c_white c); reflexivity]. left. destruct (server_of (c_pid c) d0); [auto|]. destruct (exec_of (c_pid c) d0); auto.
  - left. unfold lookup. pose proof (answer_books l0 d0) as B. destruct (answer l0 d0) as [d2 b]. cbn [fst] in B. destruct B as (_ & _ & B & _). destruct b; cbn [d_look set_look]; rewrite B; [auto|apply in_or_app; auto].
  - auto.
  - destruct (shutdown_still d0) as (_ & _ & A & _). rewrite A. auto.
  - destruct (d_level d); auto. destruct (shutdown_still (set_level Error d0)) as (_ & _ & A & _). rewrite A. auto.
  - apply still_aliases in E. rewrite (t_look _ _ E). auto.
  - unfold assassinate. destruct (severe && _); auto.
Qed.
Lemma step_lookup o l d d' ev : step o (Lookup l) d = Some (d', ev) -> d_out d = [] -> asks_for l -> (In l (d_look d') /\ snd (answer l d) = false /\ ev = []) \/ (exists p q, ev = [Found (l_ipc l) (l_corr l) p q]).
Proof.
  intros H O K. unfold step in H. set (d0 := set_out [] (set_orc o d)) in *. cbn [handle option_map] in H. injection H as <- <-. unfold lookup. pose proof (answer_true l d0 K) as T. pose proof (answer_same l d d0 eq_refl eq_refl eq_refl eq_refl) as SM.
  pose proof (answer_books l d0) as B. assert (F : snd (answer l d0) = false -> d_out (fst (answer l d0)) = []).
  { unfold answer. destruct (l_id l) as [id|]; [destruct (singleton id d0); [discriminate|destruct (direct l d0); [discriminate|auto]]|]. destruct (l_proc l); [|discriminate]. cbv zeta. destruct (_ || _); [discriminate|auto]. }
  destruct (answer l d0) as [d2 b]. cbn [fst snd] in *. destruct b.
  - right. destruct (T eq_refl) as (p & q & E). exists p, q. rewrite E. reflexivity.
  - left. cbn. split; [apply in_or_app; cbn; auto|]. split; [auto|]. auto.
Qed.
Lemma waits_in d h l : reach d h -> waits l h -> In l (d_look d).
Proof.
  intros R (a & ev & b & -> & K & NE & NF). revert d R NE NF. induction b as [|[i e] b IH] using rev_ind; intros d R NE NF.
  - apply reach_last in R as (d0 & o & R0 & P & S). pose proof (k_rest _ _ (reach_kept _ _ R0)) as (_ & _ & O). destruct (step_lookup o l d0 d ev S O K) as [[J _]|(p & q & J)]; [auto|]. exfalso. apply (NF p q). apply in_or_app. left. rewrite J. cbn. auto.
  - rewrite app_comm_cons, app_assoc in R. apply reach_last in R as (d0 & o & R0 & P & S). rewrite inputs_app in NE. assert (J : In l (d_look d0)).
    { apply IH; auto; [intro X; apply NE; apply in_or_app; auto|]. intros p q X. apply (NF p q). rewrite effects_app. apply in_app_or in X as [X|X]; apply in_or_app; [auto|right; apply in_or_app; auto]. }
    assert (N : a ++ (Lookup l, ev) :: b <> []) by (intro Q; apply app_eq_nil in Q as [_ Q]; discriminate). destruct (step_waits o i d0 d e l S (not_begin _ _ _ P N) J K) as [X|[(p & q & X)|X]]; [auto| |].
    + exfalso. apply (NF p q). rewrite effects_app, effects_one. apply in_or_app. right. apply in_or_app. auto.
    + exfalso. apply NE. apply in_or_app. right. rewrite X. cbn. auto.
Qed.
(* what's asked directly, or when it's down, is answered at once *)
Theorem lookup_direct d h l ev : reach d (h ++ [(Lookup l, ev)]) -> asks_for l -> l_direct l = true \/ down h -> exists p q, ev = [Found (l_ipc l) (l_corr l) p q].
Proof.
  intros R K D. apply reach_last in R as (d0 & o & R0 & P & S). pose proof (k_rest _ _ (reach_kept _ _ R0)) as (_ & _ & O). destruct (step_lookup o l d0 d ev S O K) as [(_ & F & _)|J]; [|auto]. exfalso. apply answer_false in F as [_ F].
  unfold direct in F. apply orb_false_iff in F as [F G]. destruct D as [D|D]; [congruence|]. apply (low_level d0 h R0) in G. contradiction.
Qed.
(* a lookup of a singleton that waits: there's no such process *)
Definition vacant (d : dom) : Prop := forall l s, In l (d_look d) -> l_id l = Some s -> singleton s d = None.
Lemma find_none_sub {A} (p : A -> bool) (a b : list A) : (forall x, In x b -> In x a) -> find p a = None -> find p b = None.
Proof. intros H F. destruct (find p b) as [x|] eqn:E; [|auto]. apply find_some in E as [J P]. apply H in J. apply (find_none _ _ F) in J. congruence. Qed.
Lemma vacant_sub d d' : vacant d -> (forall x, In x (d_sing d') -> In x (d_sing d)) -> (forall x, In x (d_look d') -> In x (d_look d)) -> vacant d'.
Proof.
  intros V A B l s J E. apply B in J. specialize (V l s J E). unfold singleton in *. destruct (find (fun x => fst x =? s) (d_sing d)) eqn:F; [discriminate|]. now rewrite (find_none_sub _ _ _ A F).
Qed.
Lemma vacant_join c d : vacant (join c d).
Proof.
  rewrite join_eq. pose proof (still_dispatch (join_pre c d)) as S. intros l s. unfold singleton. rewrite (t_sing _ _ S), (t_look _ _ S), join_pre_eq.
  pose proof (answer_all_left l (d_look (join_first c d)) (join_first c d)) as L. pose proof (answer_all_books (d_look (join_first c d)) (join_first c d)) as B. destruct (answer_all (d_look (join_first c d)) (join_first c d)) as [d2 ks]. cbn [fst snd] in *. destruct B as (B & _).
  cbn [d_look d_sing set_look]. intros J E. apply L in J as [_ J]. apply answer_false in J as [J _]. rewrite E in J. unfold singleton in J. now rewrite B.
Qed.
Lemma step_vacant o i d d' ev : step o i d = Some (d', ev) -> vacant d -> vacant d'.
Proof.
  intros H V. unfold step in H. set (d0 := set_out [] (set_orc o d)) in *. destruct (handle i d0) as [d1|] eqn:E; [|discriminate]. injection H as <- <-. assert (V0 : vacant d0) by exact V. enough (G : vacant d1) by exact G.
  assert (ST : forall x y, still x y -> vacant x -> vacant y) by (intros x y S W; apply (vacant_sub x y W); [rewrite (t_sing _ _ S); auto|rewrite (t_look _ _ S); auto]).
  destruct i; cbn [handle] in E; try (injection E as <-).
  - eapply ST; [apply still_boot|]. intros l s [].
  - destruct (exit_books pid d0) as (A & B & _). apply (vacant_sub d0 _ V0); [rewrite A; apply gone_sub|rewrite B; intros x J; apply filter_In in J; tauto].
  - unfold own. destruct (d_self d0) as [|[a x|x] r]; [auto| |exact V0]. eapply ST; [apply still_dispatch|exact V0].
  - unfold connect. destruct (rank Running <? rank (d_level d0)); [exact V0|]. destruct (c_sing c) as [id|]; [|apply (vacant_join c _)]. destruct (singleton id d0); [|apply (vacant_join c _)]. destruct (server_of (c_pid c) d0); [exact V0|]. destruct (exec_of (c_pid c) d0); exact V0.
  - unfold lookup. pose proof (answer_books l d0) as B. pose proof (answer_false l d0) as F. destruct (answer l d0) as [d2 b]. cbn [fst snd] in *. destruct B as (B1 & _ & B & _). destruct b; [apply (vacant_sub d0 _ V0); [now rewrite B1|now rewrite B]|].
    intros x s J X. cbn [d_look set_look] in J. unfold singleton. cbn [d_sing set_look]. rewrite B1. apply in_app_or in J as [J|[<-|[]]]; [rewrite B in J; apply (V0 x s J X)|]. specialize (F eq_refl). rewrite X in F. apply F.
  - exact V0.
  - destruct (shutdown_still d0) as (A & _ & B & _). apply (vacant_sub d0 _ V0); [now rewrite A|now rewrite B].
  - destruct (d_level d); auto. destruct (shutdown_still (set_level Error d0)) as (A & _ & B & _). apply (vacant_sub d0 _ V0); [now rewrite A|now rewrite B].
  - apply still_aliases in E. apply (ST _ _ E V0).
  - unfold assassinate. destruct (severe && _); exact V0.
Qed.
Lemma reach_vacant d h : reach d h -> vacant d.
Proof. intro R. induction R as [|d h o i d' ev R IH P S]; [intros l s []|apply (step_vacant o i d d' ev S IH)]. Qed.
Theorem lookup_vacant d h l s p q : reach d h -> waits l h -> l_id l = Some s -> ~ holds s p q h.
Proof.
  intros R W E H. apply (waits_in d h l R) in W. pose proof (reach_vacant d h R l s W E) as V. destruct (sing_books d h R) as [N B]. apply B in H. apply (sing_find s (d_sing d) N) in H. unfold singleton in V. congruence.
Qed.
(* a process that's waited for: when it connects, there's the answer *)
Lemma existsb_conn p q l r : existsb (has_pid r) (conn_inst p q l) = existsb (has_pid r) l.
Proof.
  induction l as [|i l IH]; [auto|]. cbn [conn_inst]. destruct (has_pid p i) eqn:E; cbn [existsb].
  - unfold has_pid in *. destruct (i_pid i) as [x|]; [|discriminate]. apply Z.eqb_eq in E. subst x. cbn. auto.
  - now rewrite IH.
Qed.
Lemma conn_find p q l : existsb (has_pid p) l = true -> exists w, find (has_pid p) (conn_inst p q l) = Some (Inst (Some p) (Some q) w).
Proof.
  induction l as [|i l IH]; [discriminate|]. cbn [existsb conn_inst]. destruct (has_pid p i) eqn:E; cbn [orb find]; [intros _|].
  - unfold has_pid at 1. cbn. rewrite Z.eqb_refl. eauto.
  - rewrite E. auto.
Qed.
Lemma join_lookup c d : uniq d -> exists q, lookup_pid (c_pid c) (join_first c d) = (Some (c_pid c), Some q).
Proof.
  intro U. unfold join_first. destruct (server_of (c_pid c) d) as [e|] eqn:E.
  - assert (S : server_of (c_pid c) (put (ent_conn (c_pid c) (c_ipc c) e) d) = Some (ent_conn (c_pid c) (c_ipc c) e)).
    { pose proof E as E'. apply server_of_in in E' as (J & _ & _). unfold server_of, put in *. cbn [d_ents set_ents ent_conn with_inst e_id]. unfold uniq in U. revert U E J. generalize (d_ents d). intro l. induction l as [|x l IH]; intros U E J; [discriminate|].
      cbn [map find] in *. inversion U as [|? ? X Y]; subst. destruct (match e_kind x with Server => existsb (has_pid (c_pid c)) (e_inst x) | Exec => false end) eqn:M.
      - injection E as <-. rewrite Z.eqb_refl. cbn [ent_conn with_inst e_kind e_inst]. rewrite existsb_conn, M. reflexivity.
      - assert (J' : In e l) by (apply find_some in E; tauto). destruct (e_id x =? e_id e) eqn:Q; [apply Z.eqb_eq in Q; exfalso; apply X; rewrite Q; now apply in_map|]. rewrite M. apply IH; auto. }
    unfold lookup_pid. rewrite S. cbn [ent_conn with_inst e_inst]. apply server_of_in in E as (_ & _ & M). destruct (conn_find _ (c_ipc c) _ M) as (w & ->). exists (c_ipc c). reflexivity.
  - unfold lookup_pid. change (server_of (c_pid c) (set_grand (d_grand d ++ [(c_pid c, c_ipc c)]) d)) with (server_of (c_pid c) d). rewrite E. cbn [d_grand set_grand].
    destruct (find (fun h => fst h =? c_pid c) (d_grand d ++ [(c_pid c, c_ipc c)])) as [[a b]|] eqn:F; [apply find_some in F as [_ F]; apply Z.eqb_eq in F; cbn in F; subst; cbn; eauto|].
    exfalso. assert (J : In (c_pid c, c_ipc c) (d_grand d ++ [(c_pid c, c_ipc c)])) by (apply in_or_app; cbn; auto). apply (find_none _ _ F) in J. cbn in J. now rewrite Z.eqb_refl in J.
Qed.
Theorem lookup_on_connect d h c ev p q l : reach d (h ++ [(Connect c, ev)]) -> In (Answer p q true) ev -> waits l h -> (l_id l = None /\ l_proc l = Some (c_pid c)) \/ (exists s, l_id l = Some s /\ c_sing c = Some s) ->
  exists x y, In (Found (l_ipc l) (l_corr l) x y) ev.
Proof.
  intros R A W Q. apply reach_last in R as (d0 & o & R0 & P & S). pose proof (k_rest _ _ (reach_kept _ _ R0)) as (U & _ & _). pose proof (waits_in d0 h l R0 W) as J. destruct W as (_ & _ & _ & _ & K & _).
  pose proof (step_sing _ _ _ _ _ S) as [_ AN]. cbn [ans_after] in AN. apply (filter_one _ _ _ _ AN) in A; [|auto]. injection A as _ _ A. change 1 with (rank Running) in A.
  unfold step in S. set (d1 := set_out [] (set_orc o d0)) in *. cbn [handle option_map] in S. injection S as <- <-. unfold connect. change (d_level d1) with (d_level d0). destruct (rank Running <? rank (d_level d0)); [discriminate|].
  assert (G : forall x, d_look x = d_look d0 -> snd (answer l (join_first c x)) = true -> exists a b, In (Found (l_ipc l) (l_corr l) a b) (d_out (say [Answer (c_pid c) (c_ipc c) true] (join c x)))).
  { intros x X T. rewrite <- X in J. pose proof (join_each c x l J) as E. rewrite T in E. destruct (E K) as (a & b & F). exists a, b. cbn. apply in_or_app. auto. }
  assert (PR : forall x, uniq x -> l_id l = None -> l_proc l = Some (c_pid c) -> snd (answer l (join_first c x)) = true).
  { intros x Ux E1 E2. unfold answer. rewrite E1, E2. cbv zeta. destruct (join_lookup c x Ux) as (y & ->). reflexivity. }
  destruct (c_sing c) as [s|].
  - change (singleton s d1) with (singleton s d0). destruct (singleton s d0) eqn:F; [discriminate|]. apply G; [destruct (c_white c); reflexivity|]. destruct Q as [[Q1 Q2]|(s' & Q1 & Q2)].
    + apply PR; auto. destruct (c_white c); exact U.
    + injection Q2 as <-. unfold answer. rewrite Q1. assert (X : exists y, singleton s (join_first c (if c_white c then set_white (d_white (set_sing (d_sing d1 ++ [(s, (c_pid c, c_ipc c))]) d1) ++ [c_pid c]) (set_sing (d_sing d1 ++ [(s, (c_pid c, c_ipc c))]) d1) else set_sing (d_sing d1 ++ [(s, (c_pid c, c_ipc c))]) d1)) = Some y).
      { unfold singleton. match goal with |- context [d_sing (join_first c ?x)] => rewrite (proj1 (join_first_books c x)) end. assert (E : find (fun x => fst x =? s) (d_sing d1 ++ [(s, (c_pid c, c_ipc c))]) <> None).
        { intro E. assert (Jn : In (s, (c_pid c, c_ipc c)) (d_sing d1 ++ [(s, (c_pid c, c_ipc c))])) by (apply in_or_app; cbn; auto). apply (find_none _ _ E) in Jn. cbn in Jn. now rewrite Z.eqb_refl in Jn. }
        destruct (c_white c); cbn [d_sing set_white set_sing]; destruct (find _ _); [cbn; eauto|contradiction|cbn; eauto|contradiction]. }
      destruct X as (y & ->). reflexivity.
  - destruct Q as [[Q1 Q2]|(s' & _ & Q2)]; [|discriminate]. apply G; [destruct (c_white c); reflexivity|]. apply PR; auto. destruct (c_white c); exact U.
Qed.

(* ---- what's answered ---- *)
Definition says (l : look) (d : dom) (e : effect) : Prop :=
  exists p q, e = Found (l_ipc l) (l_corr l) p q /\
    match l_id l with
    | Some s => match singleton s d with Some h => p = Some (fst h) /\ q = Some (snd h) | None => p = None /\ q = None /\ direct l d = true end
    | None => match l_proc l with Some r => (p, q) = lookup_pid r d /\ ((p = None \/ q = None) -> direct l d = true) | None => False end
    end.
Lemma answer_says l d : exists x, d_out (fst (answer l d)) = d_out d ++ x /\ forall e, In e x -> says l d e.
Proof.
  assert (N : exists x, d_out d = d_out d ++ x /\ forall e, In e x -> says l d e) by (exists []; rewrite app_nil_r; split; [auto|contradiction]).
  unfold answer. destruct (l_id l) as [s|] eqn:I.
  - destruct (singleton s d) as [h|] eqn:F; [cbn; eexists; split; [reflexivity|]; intros e [<-|[]]; do 2 eexists; split; [reflexivity|]; rewrite I, F; auto|]. destruct (direct l d) eqn:D; [|auto].
    cbn; eexists; split; [reflexivity|]; intros e [<-|[]]; do 2 eexists; split; [reflexivity|]; rewrite I, F; auto.
  - destruct (l_proc l) as [r|] eqn:Q; [|auto]. cbv zeta. destruct (_ || _) eqn:C; [|auto]. cbn; eexists; split; [reflexivity|]; intros e [<-|[]]; do 2 eexists; split; [reflexivity|]; rewrite I, Q. split; [now destruct (lookup_pid r d)|].
    apply orb_true_iff in C as [C|C]; [|auto]. destruct (lookup_pid r d) as [[a|] [b|]]; try discriminate. intros [X|X]; discriminate.
Qed.
Lemma says_same l d d' e : d_sing d' = d_sing d -> d_level d' = d_level d -> d_ents d' = d_ents d -> d_grand d' = d_grand d -> says l d' e -> says l d e.
Proof. intros A B C D. unfold says, singleton, direct, lookup_pid, server_of. rewrite A, B, C, D. auto. Qed.
Lemma answer_all_says ls : forall d, exists x, d_out (fst (answer_all ls d)) = d_out d ++ x /\ forall e, In e x -> exists l, In l ls /\ says l d e.
Proof.
  induction ls as [|l r IH]; intro d; cbn [answer_all]; [exists []; rewrite app_nil_r; split; [auto|contradiction]|]. pose proof (answer_says l d) as A. pose proof (answer_books l d) as B. destruct (answer l d) as [d1 b]. cbn [fst] in *.
  destruct A as (x & A & X). destruct B as (B1 & B2 & _ & B4 & B5 & _). specialize (IH d1). destruct (answer_all r d1) as [d2 k]. cbn [fst] in *. destruct IH as (y & C & Y). exists (x ++ y). split; [rewrite C, A; now rewrite app_assoc|].
  intros e J. apply in_app_or in J as [J|J]; [exists l; cbn; auto|]. apply Y in J as (m & J & K). exists m. split; [cbn; auto|]. now apply (says_same m d d1).
Qed.
Lemma talk_in d d' e : filter talk (d_out d') = filter talk (d_out d) -> talk e = true -> In e (d_out d') -> In e (d_out d).
Proof. intros E T J. assert (K : In e (filter talk (d_out d'))) by (apply filter_In; auto). rewrite E in K. apply filter_In in K. tauto. Qed.
Lemma join_says c d e : d_out d = [] -> talk e = true -> In e (d_out (join c d)) -> exists l, In l (d_look d) /\ says l (join_first c d) e.
Proof.
  intros O T J. rewrite join_eq in J. pose proof (still_dispatch (join_pre c d)) as S. apply (talk_in _ _ _ (t_out _ _ S) T) in J. rewrite join_pre_eq in J. destruct (join_first_books c d) as (_ & _ & J3 & J4). pose proof (answer_all_says (d_look (join_first c d)) (join_first c d)) as A.
  destruct (answer_all _ _) as [d2 k]. cbn [fst] in A. destruct A as (x & A & X). cbn [d_out set_look] in J. rewrite A, J4, O in J. apply X in J as (l & J & K). rewrite J3 in J. eauto.
Qed.
(* an answer is that of a lookup that waits or is asked, from the books as they are when it's given *)
Definition books (i : input) (d : dom) (s : dom) : Prop := d_level s = d_level d /\ d_sing s = sing_after i d.
Lemma step_says o i d d' ev a k p q : step o i d = Some (d', ev) -> In (Found a k p q) ev -> exists l s, (i = Lookup l \/ In l (d_look d)) /\ books i d s /\ says l s (Found a k p q).
Proof.
  intros H J. unfold step in H. set (d0 := set_out [] (set_orc o d)) in *. destruct (handle i d0) as [d1|] eqn:E; [|discriminate]. injection H as <- <-. set (e := Found a k p q) in *. assert (T : talk e = true) by reflexivity.
  assert (Q : filter talk (d_out d1) = [] -> False) by (intro F; assert (K : In e (filter talk (d_out d1))) by (apply filter_In; auto); rewrite F in K; contradiction).
  assert (PN : forall l, filter talk (map (fun h : Z * option Z => match snd h with Some q => Ask q | None => Term (fst h) end) l) = []) by (intro l; induction l as [|[x [y|]] l IH]; cbn; auto).
  destruct i; cbn [handle] in E; try (injection E as <-).
  - exfalso; apply Q. match goal with |- context [boot ?x] => pose proof (still_boot x) as S end. now rewrite (t_out _ _ S).
  - exfalso; apply Q. destruct (exit_books pid d0) as (_ & _ & A). now rewrite A.
  - exfalso; apply Q. unfold own. destruct (d_self d0) as [|[b l|l] r]; [auto| |apply PN]. pose proof (still_dispatch (set_self r d0)) as S. now rewrite (t_out _ _ S).
  - clear Q. unfold connect in J. cbn [sing_after] in *. unfold books. cbn [sing_after]. change (d_level d0) with (d_level d) in *. destruct (rank Running <? rank (d_level d)) eqn:L; [exfalso; cbn in J; destruct J as [J|[]]; discriminate|]. change (singleton) with (fun id d => option_map snd (find (fun x => fst x =? id) (d_sing d))) in *. cbv beta in *. change (d_sing d0) with (d_sing d) in *.
    assert (G : forall x, d_out x = [] -> d_look x = d_look d -> d_level x = d_level d -> In e (d_out (say [Answer (c_pid c) (c_ipc c) true] (join c x))) -> exists l s, (Connect c = Lookup l \/ In l (d_look d)) /\ (d_level s = d_level d /\ d_sing s = d_sing x) /\ says l s e).
    { intros x X1 X2 X3 K. cbn in K. apply in_app_or in K as [K|[K|[]]]; [|discriminate]. apply (join_says c x e X1 T) in K as (l & K & Y). exists l, (join_first c x). destruct (join_first_books c x) as (Z1 & Z2 & _). rewrite Z1, Z2, X3. rewrite X2 in K. auto. }
    destruct (c_sing c) as [id|].
    + destruct (option_map snd (find (fun x => fst x =? id) (d_sing d))) as [h|].
      * exfalso. destruct (server_of (c_pid c) d0); [|destruct (exec_of (c_pid c) d0)]; cbn in J; destruct J as [J|[]]; discriminate.
      * apply G in J; try (destruct (c_white c); reflexivity). destruct J as (l & s & A & B & C). exists l, s. split; [auto|]. split; [|auto]. destruct B as [B1 B2]. split; [auto|]. rewrite B2. destruct (c_white c); reflexivity.
    + apply G in J; try (destruct (c_white c); reflexivity). destruct J as (l & s & A & B & C). exists l, s. split; [auto|]. split; [|auto]. destruct B as [B1 B2]. split; [auto|]. rewrite B2. destruct (c_white c); reflexivity.
  - unfold lookup in J. pose proof (answer_says l d0) as A. destruct (answer l d0) as [d2 b]. cbn [fst] in A. destruct A as (x & A & X). exists l, d0. split; [auto|]. split; [split; reflexivity|]. apply X. destruct b; cbn [d_out set_look] in J; rewrite A in J; exact J.
  - exfalso; apply Q. apply PN.
  - exfalso; apply Q. destruct (shutdown_still d0) as (_ & _ & _ & _ & A). now rewrite A.
  - exfalso; apply Q. change (d_level d0) with (d_level d). destruct (d_level d); try reflexivity. destruct (shutdown_still (set_level Error d0)) as (_ & _ & _ & _ & A). now rewrite A.
  - exfalso; apply Q. apply still_aliases in E. now rewrite (t_out _ _ E).
  - exfalso. unfold assassinate in J. destruct (severe && _); cbn in J; [destruct J as [J|[]]; discriminate|contradiction].
Qed.
Lemma exit_look o p d d' ev l : step o (Exit p) d = Some (d', ev) -> In l (d_look d') -> l_pid l <> p.
Proof.
  intro S. unfold step in S. cbn [handle option_map] in S. injection S as <- _. cbn [d_look set_out]. destruct (exit_books p (set_out [] (set_orc o d))) as (_ & A & _). rewrite A. intro J. apply filter_In in J as [_ J]. apply negb_true_iff, Z.eqb_neq in J. auto.
Qed.
Lemma exit_quiet o p d d' ev a b c e : step o (Exit p) d = Some (d', ev) -> ~ In (Found a b c e) ev.
Proof.
  intro S. unfold step in S. cbn [handle option_map] in S. injection S as _ <-. destruct (exit_books p (set_out [] (set_orc o d))) as (_ & _ & A). intro J.
  assert (K : In (Found a b c e) (filter talk (d_out (exit p (set_out [] (set_orc o d)))))) by (apply filter_In; auto). rewrite A in K. contradiction.
Qed.
(* it's been asked, and the one that asks hasn't ended *)
Lemma look_asked d h l : reach d h -> In l (d_look d) -> exists a b, inputs h = a ++ Lookup l :: b /\ ~ In (Exit (l_pid l)) b.
Proof.
  intro R. revert l. induction R as [|d h o i d' ev R IH P S]; [contradiction|]. intros l J. rewrite inputs_app. assert (K : In l (d_look d) \/ i = Lookup l); [|destruct K as [K| ->]].
  2: { destruct (IH l K) as (a & b & E & X). exists a, (b ++ [i]). rewrite E, <- app_assoc. split; [auto|]. intro Y. apply in_app_or in Y as [Y|[->|[]]]; [auto|]. now apply (exit_look _ _ _ _ _ _ S J). }
  2: { exists (inputs h), []. auto. }
  clear IH P R.
  unfold step in S. set (d0 := set_out [] (set_orc o d)) in *. destruct (handle i d0) as [d1|] eqn:E; [|discriminate]. injection S as <- <-. cbn [d_look set_out] in J. change (d_look d) with (d_look d0). destruct i; cbn [handle] in E; try (injection E as <-); auto.
  - match type of J with context [boot ?x] => pose proof (still_boot x) as S end. rewrite (t_look _ _ S) in J. contradiction.
  - destruct (exit_books pid d0) as (_ & A & _). rewrite A in J. apply filter_In in J. tauto.
  - unfold own in J. destruct (d_self d0) as [|[b m|m] r]; [auto| |auto]. pose proof (still_dispatch (set_self r d0)) as S. rewrite (t_look _ _ S) in J. auto.
  - unfold connect in J. destruct (rank Running <? rank (d_level d0)); [auto|]. assert (G : forall x, d_look x = d_look d0 -> In l (d_look (say [Answer (c_pid c) (c_ipc c) true] (join c x))) -> In l (d_look d0)).
    { intros x X K. cbn [say d_look set_out] in K. rewrite join_eq in K. pose proof (still_dispatch (join_pre c x)) as S. rewrite (t_look _ _ S), join_pre_eq in K. pose proof (answer_all_left l (d_look (join_first c x)) (join_first c x)) as L. destruct (answer_all _ _) as [d2 k]. cbn [d_look set_look] in K. apply L in K as [K _].
      rewrite (proj1 (proj2 (proj2 (join_first_books c x)))), X in K. exact K. }
    left. destruct (c_sing c) as [id|]; [|apply G in J; [auto|destruct (c_white c); reflexivity]]. destruct (singleton id d0); [|apply G in J; [auto|destruct (c_white c); reflexivity]]. destruct (server_of (c_pid c) d0); [auto|]. destruct (exec_of (c_pid c) d0); auto.
  - unfold lookup in J. pose proof (answer_books l0 d0) as B. destruct (answer l0 d0) as [d2 b]. cbn [fst] in B. destruct B as (_ & _ & B & _). destruct b; cbn [d_look set_look] in J; rewrite B in J; [auto|]. apply in_app_or in J as [J|[<-|[]]]; auto.
  - destruct (shutdown_still d0) as (_ & _ & A & _). rewrite A in J. auto.
  - destruct (d_level d); auto. destruct (shutdown_still (set_level Error d0)) as (_ & _ & A & _). rewrite A in J. auto.
  - apply still_aliases in E. rewrite (t_look _ _ E) in J. auto.
  - unfold assassinate in J. destruct (severe && _); auto.
Qed.
Lemma found_pid r d p q : (p, q) = lookup_pid r d -> p = None \/ p = Some r.
Proof.
  unfold lookup_pid. destruct (server_of r d) as [e|].
  - destruct (find (has_pid r) (e_inst e)) as [i|] eqn:F; [|intro H; injection H as -> ->; auto]. apply find_some in F as [_ F]. unfold has_pid in F. intro H. injection H as -> ->. destruct (i_pid i); [|auto]. apply Z.eqb_eq in F. subst. auto.
  - destruct (find _ (d_grand d)) as [h|] eqn:F; [|intro H; injection H as -> ->; auto]. apply find_some in F as [_ F]. apply Z.eqb_eq in F. intro H. injection H as -> ->. subst. auto.
Qed.
Theorem lookup_answer d h i ev a k p q : reach d (h ++ [(i, ev)]) -> connects_once (h ++ [(i, ev)]) -> In (Found a k p q) ev ->
  exists l, (exists x y, inputs (h ++ [(i, ev)]) = x ++ Lookup l :: y /\ ~ In (Exit (l_pid l)) y) /\ l_ipc l = a /\ l_corr l = k
    /\ (forall s, l_id l = Some s -> (exists x y, p = Some x /\ q = Some y /\ holds s x y (h ++ [(i, ev)])) \/ (p = None /\ q = None /\ (forall x y, ~ holds s x y (h ++ [(i, ev)]))))
    /\ (l_id l = None -> exists r, l_proc l = Some r /\ (p = None \/ p = Some r))
    /\ (p = None \/ q = None -> l_direct l = true \/ down h).
Proof.
  intros R O J. pose proof R as R'. apply reach_last in R as (d0 & o & R0 & P & S). destruct (step_says o i d0 d ev a k p q S J) as (l & s & L & [B1 B2] & (p' & q' & E & M)). injection E as -> -> <- <-.
  assert (DN : direct l s = true -> l_direct l = true \/ down h).
  { unfold direct. rewrite B1. intro D. apply orb_true_iff in D as [D|D]; [auto|]. right. pose proof (k_level _ _ (reach_kept _ _ R0)) as K. destruct (d_level d0); try discriminate; auto. }
  exists l. split.
  { rewrite inputs_app. destruct L as [->|L]; [exists (inputs h), []; auto|]. destruct (look_asked d0 h l R0 L) as (x & y & E & X). rewrite E. exists x, (y ++ [i]). rewrite <- app_assoc. split; [auto|]. intro Y. apply in_app_or in Y as [Y|[->|[]]]; [auto|].
    exact (exit_quiet _ _ _ _ _ _ _ _ _ S J). }
 split; [auto|]. split; [auto|].
  pose proof (step_sing _ _ _ _ _ S) as [SG _]. destruct (sing_books _ _ R') as [N BK]. pose proof (proj2 (sing_exact _ _ R' O)) as EX. destruct (l_id l) as [id|].
  - unfold singleton in M. rewrite B2, <- SG in M. split; [|split; [discriminate|]].
    + intros s' Es. injection Es as <-. destruct (option_map snd _) as [[x y]|] eqn:F.
      * left. destruct M as [-> ->]. exists x, y. cbn. split; [auto|]. split; [auto|]. apply EX. now apply (sing_find id _ N).
      * right. destruct M as (-> & -> & _). split; [auto|]. split; [auto|]. intros x y H. apply BK in H. apply (sing_find id _ N) in H. congruence.
    + destruct (option_map snd _) as [g|]; [destruct M as [-> ->]; intros [X|X]; discriminate|]. destruct M as (_ & _ & M). auto.
  - destruct (l_proc l) as [r|]; [|contradiction]. destruct M as [M D]. split; [discriminate|]. split; [|auto]. intros _. exists r. split; [auto|]. apply (found_pid r s p q M).
Qed.
