(* The domain manager: what it is to scale. *)
From Coq Require Import ZArith List Bool Lia Permutation.
From Verif Require Import DomModel DomSpec.
Import ListNotations.
Local Open Scope Z_scope.


Theorem scale_undefined n e : scale n e = None <-> n < 0.
Proof.
  unfold scale. destruct (Z.of_nat (length (e_inst e)) <? n) eqn:A.
  - apply Z.ltb_lt in A. split; [discriminate|lia].
  - destruct (n <? 0) eqn:B; [apply Z.ltb_lt in B|apply Z.ltb_ge in B]; split; auto; try discriminate. lia.
Qed.
Theorem scale_conf' n e e' : scale n e = Some e' -> conf e' = conf e.
Proof. unfold scale. destruct (_ <? _); [intro H; injection H as <-; auto|]. destruct (_ <? _); [discriminate|]. intro H; injection H as <-. auto. Qed.
Lemma proc_want l p : map proc (map (want p) l) = map proc l.
Proof. rewrite map_map. reflexivity. Qed.
(* more of them: those there are, then new ones *)
Theorem scale_more n e e' : scale n e = Some e' -> Z.of_nat (length (e_inst e)) < n ->
  map proc (e_inst e') = map proc (e_inst e) ++ repeat (None, None) (Z.to_nat n - length (e_inst e)) /\ forall i, In i (e_inst e') -> i_want i = kept_want e.
Proof.
  unfold scale. intros H L. apply Z.ltb_lt in L. rewrite L in H. injection H as <-. cbn [with_inst e_inst]. split.
  - rewrite proc_want, map_app. f_equal. induction (Z.to_nat n - length (e_inst e))%nat; cbn; [auto|]. now f_equal.
  - intros i J. apply in_map_iff in J as (x & <- & _). reflexivity.
Qed.
Lemma filter_split {A} (p : A -> bool) l : Permutation l (filter p l ++ filter (fun x => negb (p x)) l).
Proof.
  induction l as [|x l IH]; cbn; [auto|]. destruct (p x); cbn; [now constructor|]. apply Permutation_cons_app, IH.
Qed.
Lemma exit_has k i : i_want i = PExit -> negb (is_st k SExit i) = true <-> has_process k i.
Proof.
  unfold is_st, state_of, has_process. intros ->. destruct k, (i_pid i) as [p|], (i_ipc i) as [q|]; cbn; split; intro H; try discriminate; eauto;
  repeat match goal with X : exists _, _ |- _ => destruct X | X : _ /\ _ |- _ => destruct X end; congruence.
Qed.
Lemma running_st k i : is_st k SRunning i = true <-> i_want i = PRun /\ has_process k i.
Proof.
  destruct i as [p q w]. unfold is_st, state_of, has_process. cbn [i_pid i_ipc i_want]. destruct k, p as [p|], q as [q|], w; cbn; (split; [intro H; try discriminate H; split; auto; eexists; try eexists; eauto; fail|]);
    try (intros [H _]; discriminate H); try (intros _; reflexivity); try (intros [_ (a & b & H & K)]; discriminate); try (intros [_ (a & H)]; discriminate).
Qed.
Lemma has_proc k i j : proc i = proc j -> has_process k i -> has_process k j.
Proof. unfold proc, has_process. destruct i, j. cbn. intro E. injection E as -> ->. auto. Qed.
(* no more of them: as many are kept, those that run before the others; of the rest those with a process are told to exit, and those without are gone *)
Theorem scale_less n e e' : scale n e = Some e' -> 0 <= n <= Z.of_nat (length (e_inst e)) ->
  exists kept rest, Permutation (e_inst e) (kept ++ rest) /\ length kept = Z.to_nat n
    /\ ((exists i, In i rest /\ i_want i = PRun /\ has_process (e_kind e) i) -> forall i, In i kept -> i_want i = PRun /\ has_process (e_kind e) i)
    /\ exists out, e_inst e' = map (fun i => Inst (i_pid i) (i_ipc i) (kept_want e)) kept ++ out
       /\ (forall i, In i out -> i_want i = PExit /\ has_process (e_kind e) i /\ In (proc i) (map proc rest)) /\ (forall i, In i rest -> has_process (e_kind e) i -> In (proc i) (map proc out)).
Proof.
  unfold scale. intros H [N L]. assert (A : Z.of_nat (length (e_inst e)) <? n = false) by (apply Z.ltb_ge; lia). assert (B : n <? 0 = false) by (apply Z.ltb_ge; lia). rewrite A, B in H. injection H as <-.
  set (k := e_kind e). set (run := filter (is_st k SRunning) (e_inst e)). set (oth := filter (fun i => negb (is_st k SRunning i)) (e_inst e)). pose proof (filter_split (is_st k SRunning) (e_inst e)) as P. fold run oth in P.
  exists (firstn (Z.to_nat n) (run ++ oth)), (skipn (Z.to_nat n) (run ++ oth)). split; [now rewrite firstn_skipn|].
  assert (LE : length (e_inst e) = length (run ++ oth)) by now apply Permutation_length. split; [rewrite firstn_length; lia|]. split.
  - intros (i & J & W & Hp) j K. apply running_st. destruct (Nat.le_gt_cases (Z.to_nat n) (length run)) as [C|C].
    + rewrite firstn_app in K. replace (Z.to_nat n - length run)%nat with 0%nat in K by lia. rewrite app_nil_r in K.
      assert (X : In j run) by (rewrite <- (firstn_skipn (Z.to_nat n) run); apply in_or_app; auto). apply filter_In in X. tauto.
    + exfalso. rewrite skipn_app in J. rewrite (skipn_all2 run) in J by lia. cbn [app] in J. assert (X : In i oth) by (rewrite <- (firstn_skipn (Z.to_nat n - length run) oth); apply in_or_app; auto).
      apply filter_In in X as [_ X]. assert (Y : is_st k SRunning i = true) by (apply running_st; auto). rewrite Y in X. discriminate.
  - eexists. split; [reflexivity|]. split.
    + intros i J. apply filter_In in J as [J K]. apply in_map_iff in J as (x & <- & J). split; [reflexivity|]. split; [apply exit_has in K; auto|]. change (proc (want PExit x)) with (proc x). now apply in_map.
    + intros i J Hp. change (proc i) with (proc (want PExit i)). apply in_map. apply filter_In. split; [now apply in_map|]. apply exit_has; [reflexivity|]. now apply (has_proc k i).
Qed.
(* how many are wanted is what's asked for; none that's connected is lost *)
Theorem scale_wanted n e e' : scale n e = Some e' -> Z.of_nat (wanted e') = n.
Proof.
  intro H. assert (N : 0 <= n) by (destruct (Z.lt_ge_cases n 0) as [C|C]; [apply (scale_undefined n e) in C; congruence|auto]).
  assert (ALL : forall (l : list inst) w, w <> PExit -> (forall i, In i l -> i_want i = w) -> length (filter (fun i => match i_want i with PExit => false | _ => true end) l) = length l).
  { intros l w W Q. f_equal. induction l as [|x l IH]; [auto|]. cbn. rewrite (Q x (or_introl eq_refl)). destruct w; try contradiction; f_equal; apply IH; intros; apply Q; cbn; auto. }
  assert (KW : kept_want e <> PExit) by (unfold kept_want; destruct (e_on e); discriminate).
  destruct (Z.lt_ge_cases (Z.of_nat (length (e_inst e))) n) as [C|C].
  - destruct (scale_more n e e' H C) as [P W]. unfold wanted. rewrite (ALL _ _ KW W). apply (f_equal (@length _)) in P. rewrite app_length, !map_length, repeat_length in P. lia.
  - destruct (scale_less n e e' H) as (kept & rest & P & L & _ & out & E & O & _); [lia|]. unfold wanted. rewrite E, filter_app, app_length.
    assert (Z0 : filter (fun i => match i_want i with PExit => false | _ => true end) out = []).
    { clear - O. induction out as [|x l IH]; [auto|]. cbn. destruct (O x (or_introl eq_refl)) as [-> _]. apply IH. intros; apply O; cbn; auto. }
    rewrite Z0. cbn [length]. rewrite (ALL _ (kept_want e) KW); [rewrite map_length; lia|]. intros i J. apply in_map_iff in J as (x & <- & _). reflexivity.
Qed.
Theorem scale_keeps n e e' i : scale n e = Some e' -> In i (e_inst e) -> has_process (e_kind e) i -> In (proc i) (map proc (e_inst e')).
Proof.
  intros H J Hp. assert (N : 0 <= n) by (destruct (Z.lt_ge_cases n 0) as [C|C]; [apply (scale_undefined n e) in C; congruence|auto]).
  destruct (Z.lt_ge_cases (Z.of_nat (length (e_inst e))) n) as [C|C].
  - destruct (scale_more n e e' H C) as [P _]. rewrite P. apply in_or_app. left. now apply in_map.
  - destruct (scale_less n e e' H) as (kept & rest & P & L & _ & out & E & _ & O); [lia|]. rewrite E, map_app. apply in_or_app. apply (Permutation_in _ P) in J. apply in_app_or in J as [J|J].
    + left. rewrite map_map. unfold proc. cbn. apply in_map_iff. exists i. auto.
    + right. auto.
Qed.
(* none that's new has a process *)
Theorem scale_new n e e' i : scale n e = Some e' -> In i (e_inst e') -> i_pid i <> None -> In (proc i) (map proc (e_inst e)).
Proof.
  intros H J Hp. assert (N : 0 <= n) by (destruct (Z.lt_ge_cases n 0) as [C|C]; [apply (scale_undefined n e) in C; congruence|auto]).
  apply (in_map proc) in J. destruct (Z.lt_ge_cases (Z.of_nat (length (e_inst e))) n) as [C|C].
  - destruct (scale_more n e e' H C) as [P _]. rewrite P in J. apply in_app_or in J as [J|J]; [auto|]. apply repeat_spec in J. unfold proc in J. congruence.
  - destruct (scale_less n e e' H) as (kept & rest & P & L & _ & out & E & O & _); [lia|]. rewrite E, map_app in J. apply (Permutation_map proc) in P. apply (Permutation_in _ (Permutation_sym P)). rewrite map_app. apply in_or_app.
    apply in_app_or in J as [J|J]; [left; rewrite map_map in J; exact J|right]. apply in_map_iff in J as (x & <- & J). apply O in J. tauto.
Qed.
