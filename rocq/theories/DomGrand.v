(* The domain manager: the processes that aren't its children. *)
From Coq Require Import ZArith List Bool Lia Permutation.
From Verif Require Import DomModel DomSpec DomBoot DomFrame DomMarks DomStep DomSeq DomScale DomTalk DomSing DomLook DomGrew DomProc DomPids DomKeep.
Import ListNotations.
Local Open Scope Z_scope.

Definition first_gone (p : Z) (l : list (Z * Z)) := remove_first (fun h => fst h =? p) l.
(* the one that's to be restarted when [p] ends *)
Definition again (p : Z) (d : dom) : bool := some (snd (remove p d)).
Definition grand_after (i : input) (d : dom) : list (Z * Z) :=
  match i with
  | Begin _ _ _ _ => []
  | Exit p => if again p d then d_grand d else first_gone p (d_grand d)
  | Connect c => if rank Running <? rank (d_level d) then d_grand d else
      match (match c_sing c with Some id => singleton id d | None => None end) with
      | Some _ => d_grand d
      | None => match server_of (c_pid c) d with Some _ => d_grand d | None => d_grand d ++ [(c_pid c, c_ipc c)] end
      end
  | _ => d_grand d
  end.
Lemma remove_grand p d : d_grand (fst (remove p d)) = if again p d then d_grand d else first_gone p (d_grand d).
Proof.
  unfold again, remove. cbv zeta. destruct (server_of p _) as [e|].
  - destruct (e_restart e && _); [reflexivity|]. destruct (exec_of p _) as [x|]; [|reflexivity]. destruct (e_restart x && _); reflexivity.
  - destruct (exec_of p _) as [x|]; [|reflexivity]. destruct (e_restart x && _); reflexivity.
Qed.
Lemma again_out p d o : again p (set_out [] (set_orc o d)) = again p d.
Proof.
  unfold again, remove. cbv zeta. change (server_of p (set_sing (remove_first (fun x => fst (snd x) =? p) (d_sing (set_out [] (set_orc o d)))) (set_look (filter (fun l => negb (l_pid l =? p)) (d_look (set_out [] (set_orc o d)))) (set_white (filter (fun q => negb (q =? p)) (d_white (set_out [] (set_orc o d)))) (set_out [] (set_orc o d)))))) with (server_of p d).
  change (server_of p (set_sing (remove_first (fun x => fst (snd x) =? p) (d_sing d)) (set_look (filter (fun l => negb (l_pid l =? p)) (d_look d)) (set_white (filter (fun q => negb (q =? p)) (d_white d)) d)))) with (server_of p d). change (d_level (set_out [] (set_orc o d))) with (d_level d).
  destruct (server_of p d) as [e|].
  - destruct (e_restart e && _); [reflexivity|]. unfold exec_of. cbn [put d_ents set_ents set_sing set_look set_white set_out set_orc]. destruct (find _ _) as [x|]; [|reflexivity]. destruct (e_restart x && _); reflexivity.
  - unfold exec_of. cbn [put d_ents set_ents set_sing set_look set_white set_out set_orc]. destruct (find _ _) as [x|]; [|reflexivity]. destruct (e_restart x && _); reflexivity.
Qed.
Lemma join_grand c d : d_grand (join c d) = match server_of (c_pid c) d with Some _ => d_grand d | None => d_grand d ++ [(c_pid c, c_ipc c)] end.
Proof.
  rewrite join_eq. pose proof (still_dispatch (join_pre c d)) as S. rewrite (t_grand _ _ S), join_pre_eq. pose proof (answer_all_books (d_look (join_first c d)) (join_first c d)) as A. destruct (answer_all _ _) as [d2 k]. cbn [fst] in A. destruct A as (_ & _ & _ & _ & A & _). cbn [d_grand set_look]. rewrite A.
  unfold join_first. destruct (server_of (c_pid c) d); reflexivity.
Qed.
Lemma step_grand o i d d' ev : step o i d = Some (d', ev) -> d_grand d' = grand_after i d.
Proof.
  intro H. unfold step in H. set (d0 := set_out [] (set_orc o d)) in *. destruct (handle i d0) as [d1|] eqn:E; [|discriminate]. injection H as <- <-. cbn [d_grand set_out].
  destruct i; cbn [handle] in E; try (injection E as <-); cbn [grand_after].
  - match goal with |- context [boot ?x] => pose proof (still_boot x) as S end. rewrite (t_grand _ _ S). reflexivity.
  - unfold exit. pose proof (remove_grand pid d0) as G. change (again pid d0) with (again pid (set_out [] (set_orc o d))) in G. rewrite (again_out pid d o) in G. destruct (remove pid d0) as [d2 r]. cbn [fst] in G. change (d_grand d) with (d_grand d0). rewrite <- G.
    assert (S : still d2 (dispatch (match r with Some id => instances_id d2 id | None => d2 end))) by (eapply still_trans; [|apply still_dispatch]; destruct r; [apply still_id|apply still_refl]). apply (t_grand _ _ S).
  - unfold own. destruct (d_self d0) as [|[a l|l] r]; [auto| |auto]. pose proof (still_dispatch (set_self r d0)) as S. now rewrite (t_grand _ _ S).
  - unfold connect. change (d_level d0) with (d_level d). destruct (rank Running <? rank (d_level d)); [auto|].
    assert (J : forall x, d_ents x = d_ents d -> d_grand x = d_grand d -> d_grand (say [Answer (c_pid c) (c_ipc c) true] (join c x)) = match server_of (c_pid c) d with Some _ => d_grand d | None => d_grand d ++ [(c_pid c, c_ipc c)] end).
    { intros x X1 X2. cbn [say d_grand set_out]. rewrite join_grand, X2. unfold server_of. now rewrite X1. }
    destruct (c_sing c) as [id|]; [|apply J; destruct (c_white c); reflexivity]. change (singleton id d0) with (singleton id d). destruct (singleton id d); [|apply J; destruct (c_white c); reflexivity]. destruct (server_of (c_pid c) d0); [auto|]. destruct (exec_of (c_pid c) d0); auto.
  - unfold lookup. pose proof (answer_books l d0) as B. destruct (answer l d0) as [d2 b]. cbn [fst] in B. destruct B as (_ & _ & _ & _ & B & _). destruct b; cbn; rewrite B; auto.
  - auto.
  - destruct (shutdown_still d0) as (_ & A & _). now rewrite A.
  - change (d_level d0) with (d_level d). destruct (d_level d); auto. destruct (shutdown_still (set_level Error d0)) as (_ & A & _). now rewrite A.
  - apply still_aliases in E. now rewrite (t_grand _ _ E).
  - unfold assassinate. destruct (severe && _); auto.
Qed.
(* a process of an executable that's restarted *)
Definition again_exec (d : dom) (h : history) (p : Z) : Prop := exists e, In e (d_ents d) /\ e_kind e = Exec /\ e_restart e = true /\ In (Spawned (e_id e) p) (effects h).
Definition conn_since (p : Z) (h : history) : Prop := exists a c ev b, h = a ++ (Connect c, ev) :: b /\ c_pid c = p /\ ~ In (Exit p) (inputs b).
Lemma conn_around p h : conn_since p h -> around p h.
Proof.
  intros (a & c & ev & b & -> & E & N). revert N. induction b as [|[i e] b IH] using rev_ind; intro N; [now apply around_connect|]. rewrite app_comm_cons, app_assoc. rewrite inputs_app in N. apply around_still; [apply IH; intro J; apply N; apply in_or_app; auto|]. intros ->. apply N. apply in_or_app. right. cbn. auto.
Qed.
Lemma conn_still p h i ev : conn_since p h -> i <> Exit p -> conn_since p (h ++ [(i, ev)]).
Proof. intros (a & c & e & b & -> & E & N) X. exists a, c, e, (b ++ [(i, ev)]). rewrite <- app_assoc. split; [auto|]. split; [auto|]. rewrite inputs_app. intro J. apply in_app_or in J as [J|[J|[]]]; auto. Qed.
Lemma first_occ p l q : In q (map fst (first_gone p l)) -> (In q (map fst l) /\ (q <> p -> occ (map fst (first_gone p l)) q = occ (map fst l) q) /\ (q = p -> (1 < occ (map fst l) p)%nat)).
Proof.
  unfold first_gone. induction l as [|x l IH]; [contradiction|]. cbn [remove_first map]. destruct (fst x =? p) eqn:E.
  - apply Z.eqb_eq in E. intro J. split; [cbn; auto|]. split; [intro N; cbn; destruct (Z.eq_dec (fst x) q); [congruence|auto]|]. intros ->. apply (count_occ_In Z.eq_dec) in J. cbn. destruct (Z.eq_dec (fst x) p); [lia|contradiction].
  - apply Z.eqb_neq in E. cbn [map]. intros [<-|J].
    + split; [cbn; auto|]. split; [|contradiction]. intros _. cbn [count_occ]. destruct (Z.eq_dec (fst x) (fst x)); [|congruence]. f_equal. clear IH. induction l as [|y l IHl]; [auto|]. cbn [remove_first]. destruct (fst y =? p) eqn:F; [apply Z.eqb_eq in F; cbn; destruct (Z.eq_dec (fst y) (fst x)); [congruence|auto]|]. cbn. destruct (Z.eq_dec (fst y) (fst x)); auto.
    + destruct (IH J) as (A & B & C). split; [cbn; auto|]. split; [intro N; cbn; rewrite (B N); auto|]. intros ->. specialize (C eq_refl). cbn. destruct (Z.eq_dec (fst x) p); [contradiction|auto].
Qed.
Lemma begun_self d h p gs m es e : reach d h -> In (Begin p gs m es) (inputs h) -> In e (d_ents d) -> e_id e = m -> e_kind e = Server.
Proof.
  intros R J Je E. destruct (reach_begun d h R) as [[-> _]|(p' & gs' & m' & es' & B & C)]; [contradiction|]. assert (X : begun p gs m es h).
  { destruct B as (ev & r & ->). cbn in J. destruct J as [J|J]; [injection J as -> -> -> ->; exists ev, r; auto|]. exfalso. clear - R J. remember ((Begin p' gs' m' es', ev) :: r) as h eqn:EH. revert ev r EH J. induction R as [|d h o i d' ev' R IH P S]; intros ev r EH J; [discriminate|].
    destruct r as [|y r] using rev_ind; [contradiction|]. clear IHr. rewrite app_comm_cons in EH. apply app_inj_tail in EH as [-> <-]. unfold inputs in J. rewrite map_app in J. apply in_app_or in J as [J|[J|[]]]; [apply (IH ev r eq_refl J)|]. cbn in J. subst i. destruct P as [[P _] _]. discriminate. }
  destruct (begun_fun _ _ _ _ _ _ _ _ _ B X) as (-> & -> & -> & ->). destruct C as (_ & N & (f & Jf & (F1 & F2 & _)) & _). pose proof (k_conf _ _ (reach_kept _ _ R) _ _ _ _ X) as (_ & _ & K).
  assert (I : In (conf e) (map conf es)) by (rewrite <- K; now apply in_map). apply in_map_iff in I as (g & G1 & G2). assert (Q : g = f) by (apply (uniq_id es); auto; unfold conf in G1; congruence). subst g. unfold conf in G1. congruence.
Qed.
Definition no_server (p : Z) (d : dom) : Prop := forall e, In e (d_ents d) -> e_kind e = Server -> ~ In p (epids e).
Lemma server_none p d : server_of p d = None -> no_server p d.
Proof. intros N e J K Q. apply (find_none _ _ N) in J. rewrite K in J. apply pid_exists in Q. congruence. Qed.
Definition stranger (d : dom) (h : history) (p : Z) : Prop := conn_since p h /\ occ (map fst (d_grand d)) p = 1%nat /\ no_server p d.
Lemma again_conf d d' h x p : map conf (d_ents d') = map conf (d_ents d) -> again_exec d h p -> again_exec d' (h ++ x) p.
Proof.
  intros C (e & J & A & B & D). assert (I : In (conf e) (map conf (d_ents d'))) by (rewrite C; now apply in_map). apply in_map_iff in I as (f & F & Jf). exists f. unfold conf in F. injection F as F1 F2 _ _ F3 _. rewrite F1, F2, F3. repeat (split; [auto|]). rewrite effects_app. apply in_or_app. auto.
Qed.
Lemma reach_grand d h : reach d h -> connects_once h -> forall p, In p (map fst (d_grand d)) -> again_exec d h p \/ stranger d h p.
Proof.
  intros R. induction R as [|d h o i d' ev R IH P S]; intros O p J; [contradiction|]. specialize (IH (once_prefix _ _ O)).
  pose proof (k_rest _ _ (reach_kept _ _ R)) as (U & _ & _). destruct (reach_procs d h R) as (N & _ & K). pose proof (step_grand _ _ _ _ _ S) as G. rewrite G in J.
  assert (C0 : h = [] \/ h <> []) by (destruct h; [auto|right; discriminate]). destruct C0 as [-> |HN].
  { apply first_step in R. subst d. destruct P as [P _]. destruct i; try (exfalso; now destruct P); try (exfalso; now apply P). }
  pose proof (not_begin h o i P HN) as NB. destruct (step_all o i d d' ev (k_rest _ _ (reach_kept _ _ R)) NB S) as [_ _ _ FC _ _ _ _].
  assert (AG : again_exec d h p -> again_exec d' (h ++ [(i, ev)]) p) by (apply again_conf; exact FC).
  assert (BN : forall p gs m es, i = Begin p gs m es -> NoDup (map e_id es)) by (intros p0 gs m es E; exfalso; now apply (NB p0 gs m es)). pose proof (step_grows o i d d' ev U BN S) as W. pose proof (ents_cut i d U NB) as CU.
  assert (NS : around p h -> i <> Exit p -> no_server p d -> no_server p d').
  { intros A X H e Je Ke Q. destruct (F2_in _ _ _ _ (w_ents _ _ _ _ W) Je) as (e0 & J0 & E). destruct (egrown_pids _ _ _ p E Q) as [Q'|Q'].
    - destruct (F2_in _ _ _ _ CU J0) as (e1 & J1 & (C1 & C2 & _)). apply (H e1 J1); [destruct E as [E _]; unfold conf in C1, E; congruence|]. apply (count_occ_In Z.eq_dec). apply (count_occ_In Z.eq_dec) in Q'. specialize (C2 p). lia.
    - destruct P as (_ & _ & P3). apply (P3 p); [|now apply around_still]. apply (spawned_opids ev o); [rewrite (w_orc _ _ _ _ W); intros z Jz; apply in_or_app; auto|]. apply spawned_in. eauto. }
  assert (SAME : In p (map fst (d_grand d)) -> d_grand d' = d_grand d -> i <> Exit p -> again_exec d' (h ++ [(i, ev)]) p \/ stranger d' (h ++ [(i, ev)]) p).
  { intros J' E X. destruct (IH p J') as [A|(A & B & D)]; [left; auto|]. right. split; [now apply conn_still|]. split; [rewrite E; auto|]. apply NS; auto. now apply conn_around. }
  destruct i; cbn [grand_after] in G, J; try (apply SAME; [exact J|exact G|discriminate]).
  - contradiction.
  - destruct (Z.eq_dec p pid) as [->|PN].
    + destruct (again pid d) eqn:AE.
      * destruct (IH pid J) as [A|(A & B & D)]; [left; auto|]. left. apply AG. unfold again, remove in AE. cbv zeta in AE. set (d1 := set_sing _ _) in AE. change (server_of pid d1) with (server_of pid d) in AE. destruct (server_of pid d) as [e|] eqn:E.
        -- exfalso. apply server_of_in in E as (E1 & E2 & E3). apply (D e E1 E2). now apply exists_pid.
        -- change (exec_of pid d1) with (exec_of pid d) in AE. destruct (exec_of pid d) as [x|] eqn:F; [|discriminate]. destruct (e_restart x && _) eqn:RR; [|discriminate]. apply andb_true_iff in RR as [RR _]. apply exec_of_in in F as (F1 & F2 & F3). exists x. repeat (split; [auto|]).
           destruct (K x pid F1 (exists_pid pid x F3)) as [Q|(gs & es & Q)]; [now apply child_spawned|]. exfalso. pose proof (begun_self d h pid gs (e_id x) es x R Q F1 eq_refl). congruence.
      * destruct (first_occ pid (d_grand d) pid J) as (A & _ & B). specialize (B eq_refl). destruct (IH pid A) as [C|(_ & C & _)]; [left; auto|lia].
    + assert (X : Exit pid <> Exit p) by congruence. destruct (again pid d); [apply SAME; auto|]. destruct (first_occ pid (d_grand d) p J) as (A & B & _). destruct (IH p A) as [C|(C1 & C2 & C3)]; [left; auto|]. right. split; [now apply conn_still|]. split; [rewrite G, (B PN); auto|]. apply NS; auto. now apply conn_around.
  - destruct (rank Running <? rank (d_level d)); [apply SAME; auto; discriminate|]. destruct (match c_sing c with Some id => singleton id d | None => None end); [apply SAME; auto; discriminate|]. destruct (server_of (c_pid c) d) as [e|] eqn:E; [apply SAME; auto; discriminate|].
    rewrite map_app in J. apply in_app_or in J as [J|J].
    + destruct (IH p J) as [A|(A & B & D)]; [left; auto|]. right. split; [apply conn_still; [auto|discriminate]|]. assert (PC : c_pid c <> p).
      { intro Q. destruct A as (a & c' & e' & b & -> & Ec & Nx). apply Nx. rewrite <- Ec. apply (O a c' e' b c ev []); [rewrite <- app_assoc; auto|congruence]. }
      split; [rewrite G, map_app, count_occ_app, B; cbn; destruct (Z.eq_dec (c_pid c) p); [contradiction|lia]|]. apply NS; auto; [now apply conn_around|discriminate].
    + destruct J as [J|[]]. cbn in J. destruct (in_dec Z.eq_dec p (map fst (d_grand d))) as [I|I].
      * destruct (IH p I) as [A|(A & _)]; [left; auto|]. exfalso. destruct A as (a & c' & e' & b & -> & Ec & Nx). apply Nx. rewrite <- Ec. apply (O a c' e' b c ev []); [rewrite <- app_assoc; auto|congruence].
      * right. split; [exists h, c, ev, []; auto|]. split; [rewrite G, map_app, count_occ_app, (proj1 (count_occ_not_In Z.eq_dec _ _) I); cbn; destruct (Z.eq_dec (c_pid c) p); [auto|contradiction]|].
        rewrite J in E. apply server_none in E. intros e Je Ke Q. destruct (F2_in _ _ _ _ (w_ents _ _ _ _ W) Je) as (e0 & J0 & Eg). destruct (egrown_pids _ _ _ p Eg Q) as [Q'|Q'].
        -- destruct (F2_in _ _ _ _ CU J0) as (e1 & J1 & (C1 & C2 & _)). apply (E e1 J1); [destruct Eg as [Eg _]; unfold conf in C1, Eg; congruence|]. apply (count_occ_In Z.eq_dec). apply (count_occ_In Z.eq_dec) in Q'. specialize (C2 p). lia.
        -- destruct P as (_ & _ & P3). apply (P3 p); [|rewrite <- J; now apply around_connect]. apply (spawned_opids ev o); [rewrite (w_orc _ _ _ _ W); intros z Jz; apply in_or_app; auto|]. apply spawned_in. eauto.
Qed.
(* what's found of a process that isn't around: only one that was an executable's, that's restarted *)
Theorem lookup_gone d h l ev a k p q : reach d (h ++ [(Lookup l, ev)]) -> connects_once h -> In (Found a k (Some p) q) ev -> l_id l = None -> ~ around p h ->
  exists e, In e (d_ents d) /\ e_kind e = Exec /\ e_restart e = true /\ In (Spawned (e_id e) p) (effects h).
Proof.
  intros R O J I A. apply reach_last in R as (d0 & o & R0 & P & S). pose proof (k_rest _ _ (reach_kept _ _ R0)) as (U & _ & OO). destruct (reach_procs d0 h R0) as (N & _ & K).
  unfold step in S. set (d1 := set_out [] (set_orc o d0)) in *. cbn [handle option_map] in S. injection S as <- <-. assert (E : In (Found a k (Some p) q) (d_out (fst (answer l d1)))) by (unfold lookup in J; destruct (answer l d1) as [d2 b]; destruct b; exact J).
  assert (EE : d_ents (lookup l d1) = d_ents d0). { unfold lookup. pose proof (answer_books l d1) as B. destruct (answer l d1) as [d2 b]. cbn [fst] in B. destruct B as (_ & _ & _ & B & _). destruct b; cbn; rewrite B; auto. }
  destruct (answer_says l d1) as (x & X1 & X2). rewrite X1 in E. cbn [app d_out d1 set_out] in E. apply X2 in E as (p' & q' & Q & M). injection Q as -> -> <- <-. rewrite I in M. destruct (l_proc l) as [r|]; [|contradiction]. destruct M as [M _].
  destruct (found_pid r d1 _ _ M) as [F|F]; [discriminate|]. injection F as <-. cbn [d_ents set_out]. rewrite EE. unfold lookup_pid in M. change (server_of p d1) with (server_of p d0) in M. change (d_grand d1) with (d_grand d0) in M. destruct (server_of p d0) as [e|] eqn:SV.
  - exfalso. apply server_of_in in SV as (Je & _ & X). destruct (K e p Je (exists_pid p e X)) as [C|(gs & es & C)]; apply A; [now apply (child_around (e_id e))|now apply (begin_around d0 h p gs (e_id e) es)].
  - destruct (find (fun h => fst h =? p) (d_grand d0)) as [[y z]|] eqn:F; [|discriminate]. apply find_some in F as [F1 F2]. apply Z.eqb_eq in F2. cbn in F2. subst y. apply (in_map fst) in F1. destruct (reach_grand d0 h R0 O p F1) as [G|(G & _)]; [exact G|]. exfalso. apply A. now apply conn_around.
Qed.
