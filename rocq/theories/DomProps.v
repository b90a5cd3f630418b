(* The properties of the domain manager: C97 - C104. *)
From Coq Require Import ZArith List Bool Lia Permutation Relations.
From Verif Require Import DomModel DomSpec DomBoot DomFrame DomMarks DomStep DomSeq DomTalk DomSing DomScale DomLook DomGrew DomProc DomPids DomKeep DomGrand DomRun DomOpen DomDown DomTold DomWhite DomAsk DomCount DomErr DomOnly DomFresh DomDeny DomStay.
Import ListNotations.
Local Open Scope Z_scope.

Definition base := [Group 1 []; Group 2 [1]; Group 3 [2]; Group 4 [3]; Group 5 [4; 3]].
Definition self1 := Ent 900 Server 9 [2] false true [Inst (Some 1) (Some 100) PRun].
Definition serv id al gs r n := Ent id Server al gs r true (repeat (Inst None None PRun) n).
Definition exe id al gs r n := Ent id Exec al gs r true (repeat (Inst None None PRun) n).
Definition gs1 := base ++ [Group 6 [5]; Group 7 [6]; Group 9 [1; 2; 3; 4; 5; 6; 7]].
Definition es1 := [self1; serv 1 11 [2] false 1; serv 2 21 [6] true 2; Ent 5 Server 25 [6] false false [Inst None None PDis]; serv 3 22 [7] false 1; exe 4 23 [7] true 1].
Definition no : list (option Z) := [].
Definition sing5 := Look 20 120 1000 (Some 5) None false.
Definition proc30 := Look 20 120 1001 None (Some 30) false.
(* it boots, with lookups that wait; a server that's restarted; it's scaled out, and a second singleton is denied; a process that isn't a child, as a singleton; lookups;
   it's scaled in; and it's shut down *)
Definition ex_l : list (input * list (option Z)) := [
  (Begin 1 gs1 900 es1, [Some 10]); (Own, no); (Connect (Conn 10 110 true (Some 0)), [Some 20; Some 21]); (Own, no);
  (Connect (Conn 20 120 false None), no); (Lookup sing5, no); (Lookup proc30, no);
  (Connect (Conn 21 121 false None), [Some 30; Some 40]); (Own, no); (Own, no); (Connect (Conn 30 130 false (Some 5)), no);
  (Exit 20, [Some 22]); (Own, no); (Connect (Conn 22 122 false None), no); (ScaleTo [(22, 3)], [Some 31; Some 32]); (Own, no); (Connect (Conn 31 131 false (Some 5)), no);
  (Connect (Conn 50 150 false (Some 7)), no); (Exit 31, no); (Lookup (Look 22 122 1002 (Some 7) None false), no); (Lookup (Look 22 122 1003 None (Some 50) true), no);
  (Lookup (Look 22 122 1004 None (Some 51) true), no); (Connect (Conn 32 132 false None), no);
  (ScaleTo [(21, 1); (23, 0)], no); (Prepared [(21, Some 121)], no); (Exit 21, no); (Exit 40, no); (Assassinate 50 true, no); (Exit 50, no);
  (Terminate, no); (Connect (Conn 60 160 false None), no); (Prepared [(30, Some 130); (32, Some 132)], no); (Exit 30, no); (Exit 32, no); (Prepared [(22, Some 122)], no); (Exit 22, no);
  (Prepared [(10, Some 110)], no); (Exit 10, no)].
Definition ex := Eval vm_compute in made ex_l.
Definition upto (n : nat) : history := firstn n (snd ex).
Definition sent (n : nat) : list effect := snd (nth n (snd ex) (Terminate, [])).
Definition state_at (n : nat) : dom := fst (made (firstn n ex_l)).
Lemma ex_reach n : reach (state_at n) (upto n).
Proof. apply (exec_reach_upto ex_l ex). vm_compute. reflexivity. Qed.
Lemma ex_conf : configured 1 gs1 900 es1.
Proof. apply conf_sound. reflexivity. Qed.
Lemma not_down_ex n : (n <= 29)%nat -> ~ down (upto n).
Proof.
  intros L [J|(a & ev & b & E & _)].
  - assert (I : In Terminate (inputs (upto 29))). { unfold upto in *. replace 29%nat with (n + (29 - n))%nat by lia. rewrite <- (firstn_skipn n (firstn (n + (29 - n)) (snd ex))), firstn_firstn, Nat.min_l by lia. unfold inputs. rewrite map_app. apply in_or_app. auto. } revert I. vm_compute. intuition discriminate.
  - assert (I : In Fatal (inputs (upto 29))). { unfold upto in *. replace 29%nat with (n + (29 - n))%nat by lia. rewrite <- (firstn_skipn n (firstn (n + (29 - n)) (snd ex))), firstn_firstn, Nat.min_l by lia. rewrite E. unfold inputs. rewrite !map_app. apply in_or_app. left. apply in_or_app. right. cbn. auto. } revert I. vm_compute. intuition discriminate.
Qed.

(* ------------------------------------------------------------------ C97: the batches of the boot *)
(* a server or an executable that's a member of a group is in one batch, once *)
Theorem C97_placed : forall gs m es e g, NoDup (map e_id es) -> In e es -> e_id e <> m -> in_group gs e g -> count_occ Z.eq_dec (concat (boot_order gs m es)) (e_id e) = 1%nat.
Proof. exact placed. Qed.
(* no other is: not the domain manager itself, and none that isn't a member of any *)
Theorem C97_only : forall gs m es id, In id (concat (boot_order gs m es)) -> exists e g, In e es /\ e_id e = id /\ id <> m /\ in_group gs e g.
Proof. exact only_those. Qed.
Theorem C97_nonempty : forall gs m es, ~ In [] (boot_order gs m es).
Proof. exact none_empty. Qed.
(* until it's told to shut down: each batch begins when the one before it has ended, in that order, and it's booted after the last. Then there's only what's asked for with a scale *)
Theorem C97_sequence : forall d h p gs m es, reach d h -> begun p gs m es h -> ~ down h ->
  exists more, (exists l, more = flat_map (fun b => [Begun b; Ended b; Done WScale]) l) /\ prefix (marks (effects h)) (in_turn (boot_order gs m es) ++ [Booted] ++ more) /\ ((forall l, ~ In (ScaleTo l) (inputs h)) -> more = []).
Proof. exact boot_sequence. Qed.
Example ex_placed : NoDup (map e_id es1) /\ in_group gs1 (serv 2 21 [6] true 2) 6 /\ boot_order gs1 900 es1 = [[1]; [2; 5]; [3; 4]].
Proof. split; [apply unique_sound; reflexivity|]. split; [split; vm_compute; tauto|vm_compute; reflexivity]. Qed.
Example ex_sequence : exists d h, reach d h /\ begun 1 gs1 900 es1 h /\ ~ down h /\ marks (effects h) = in_turn [[1]; [2; 5]; [3; 4]] ++ [Booted; Begun [3]; Ended [3]; Done WScale].
Proof. exists (state_at 23), (upto 23). split; [apply ex_reach|]. split; [eexists; eexists; reflexivity|]. split; [apply not_down_ex; lia|vm_compute; reflexivity]. Qed.

(* ------------------------------------------------------------------ C98: the dependencies *)
(* one whose groups are all depended on by a group of another is started before that. Missing: groups that are declared before those they depend on, see [C98_declared_refuted] *)
Theorem C98_dependencies_partial : forall gs m es e f g, NoDup (map g_id gs) -> NoDup (map e_id es) -> declared_in_order gs ->
  In e es -> In f es -> e_id e <> m -> e_id f <> m -> in_group gs e g -> (exists k, in_group gs f k) -> (forall k, in_group gs f k -> clos_trans Z (depends gs) g k) ->
  earlier (boot_order gs m es) (e_id f) (e_id e).
Proof. exact dependencies_first. Qed.
(* a group that's declared before one that it depends on can be started before it: what it's sorted with isn't an ordering *)
Definition gs4 := base ++ [Group 6 []; Group 7 [9]; Group 8 []; Group 9 []; Group 10 [1; 2; 3; 4; 5; 6; 7; 8; 9]].
Definition es4 := [self1; serv 1 11 [7] false 1; serv 2 12 [9] false 1].
Theorem C98_declared_refuted : exists p gs m es e f g, configured p gs m es /\ In e es /\ In f es /\ e_id e <> m /\ e_id f <> m /\ in_group gs e g /\ (exists k, in_group gs f k) /\ (forall k, in_group gs f k -> depends gs g k)
  /\ (forall k, in_group gs e k -> k = g) /\ earlier (boot_order gs m es) (e_id e) (e_id f).
Proof.
  exists 1, gs4, 900, es4, (serv 1 11 [7] false 1), (serv 2 12 [9] false 1), 7. split; [apply conf_sound; reflexivity|]. split; [cbn; auto|]. split; [cbn; auto|]. split; [discriminate|]. split; [discriminate|]. split; [split; vm_compute; tauto|].
  split; [exists 9; split; vm_compute; tauto|]. split; [intros k [[<-|[]] _]; exists (Group 7 [9]); repeat (split; [vm_compute; tauto|]); vm_compute; auto|]. split; [intros k [[<-|[]] _]; reflexivity|].
  exists [], [1], [], [2], []. split; [vm_compute; reflexivity|vm_compute; auto].
Qed.
Example ex_dependencies : NoDup (map g_id gs1) /\ declared_in_order gs1 /\ in_group gs1 (serv 3 22 [7] false 1) 7 /\ (forall k, in_group gs1 (serv 1 11 [2] false 1) k -> clos_trans Z (depends gs1) 7 k).
Proof.
  split; [apply unique_sound; reflexivity|]. split; [apply in_order; reflexivity|]. split; [split; vm_compute; tauto|]. intros k [[<-|[]] _].
  assert (D : forall a b, match find (fun g => g_id g =? a) gs1 with Some g => existsb (Z.eqb b) (g_deps g) | None => false end = true -> depends gs1 a b).
  { intros a b H. destruct (find _ gs1) as [g|] eqn:F; [|discriminate]. apply find_some in F as [F1 F2]. apply Z.eqb_eq in F2. apply existsb_exists in H as (x & J & X). apply Z.eqb_eq in X. subst x. exists g. auto. }
  apply (t_trans _ _ _ 6); [apply t_step; apply D; reflexivity|]. apply (t_trans _ _ _ 5); [apply t_step; apply D; reflexivity|]. apply (t_trans _ _ _ 3); apply t_step; apply D; reflexivity.
Qed.

(* ------------------------------------------------------------------ C99: one batch at a time *)
(* when a batch has ended, each instance of it is what's wanted of it, or has failed *)
Theorem C99_ended : forall d h i ev b e, reach d (h ++ [(i, ev)]) -> In (Ended b) ev -> In e (d_ents d) -> In (e_id e) b -> forall x, In x (e_inst e) -> at_rest (e_kind e) x.
Proof. exact batch_at_rest. Qed.
(* a process is only spawned for one that's in the batch that has just begun, or when another ends while it's running *)
Theorem C99_spawned : forall d h i ev a id p c, reach d (h ++ [(i, ev)]) -> (forall q, i = Exit q -> In Booted (effects h) -> down h) -> ev = a ++ Spawned id p :: c -> exists a1 b a2, a = a1 ++ Begun b :: a2 /\ marks a2 = [] /\ In id b.
Proof. exact spawned_in_batch. Qed.
(* one that can't be spawned is in error (it isn't waited for), and a process that's spawned is that of an instance *)
Theorem C99_failed : forall d h i ev id, reach d (h ++ [(i, ev)]) -> In (Failed id) ev -> exists e x, In e (d_ents d) /\ e_id e = id /\ In x (e_inst e) /\ i_want x = PErr.
Proof. exact failed_errs. Qed.
Theorem C99_instance : forall d h i ev id p, reach d (h ++ [(i, ev)]) -> In (Spawned id p) ev -> exists e x, In e (d_ents d) /\ e_id e = id /\ In x (e_inst e) /\ i_pid x = Some p.
Proof. exact spawned_instance. Qed.
(* when a batch begins, an entity of it that's enabled and hasn't been started is started: all its instances (or the start fails). Not when it begins with a shutdown, or a scale that's asked for: see C104 *)
Theorem C99_starts : forall d0 h o i d ev b e, reach d0 h -> possible h o i -> step o i d0 = Some (d, ev) -> In (Begun b) ev -> In (e_id e) b -> e_on e = true -> (forall x, In x (e_inst e) -> x = Inst None None PRun) ->
  (In e (d_ents d0) \/ exists p gs m es, i = Begin p gs m es /\ In e es) -> i <> Terminate -> i <> Fatal -> (forall l, i <> ScaleTo l) ->
  exists e', In e' (d_ents d) /\ conf e' = conf e /\ length (e_inst e') = length (e_inst e) /\ forall x, In x (e_inst e') -> started (e_id e) ev x.
Proof. exact batch_starts. Qed.
Example ex_starts : exists d0 h o i d ev e, reach d0 h /\ possible h o i /\ step o i d0 = Some (d, ev) /\ In (Begun [2; 5]) ev /\ In e (d_ents d0) /\ e_id e = 2 /\ e_on e = true /\ e_inst e = [Inst None None PRun; Inst None None PRun] /\ i = Connect (Conn 10 110 true (Some 0)).
Proof.
  exists (state_at 2), (upto 2), [Some 20; Some 21], (Connect (Conn 10 110 true (Some 0))), (state_at 3), (sent 2), (Ent 2 Server 21 [6] true true [Inst None None PRun; Inst None None PRun]).
  split; [apply ex_reach|]. split; [apply possible_sound; vm_compute; reflexivity|]. split; [vm_compute; reflexivity|]. split; [vm_compute; tauto|]. split; [vm_compute; tauto|]. repeat split; reflexivity.
Qed.
(* it goes on: when a process has ended or connected, or it has told itself of those that it spawned, and a batch is still going on, there's an instance of that which isn't what's wanted of it *)
Theorem C99_goes_on : forall d0 h o i d ev b, reach d0 h -> possible h o i -> step o i d0 = Some (d, ev) -> tells d0 i ev -> going_on b (h ++ [(i, ev)]) ->
  exists e x, In e (d_ents d) /\ In (e_id e) b /\ In x (e_inst e) /\ ~ at_rest (e_kind e) x.
Proof. exact batch_goes_on. Qed.
(* it isn't so that it's booted in the end: when a process ends before it's up it isn't started again (though it's configured to be), its batch doesn't end, there's nothing left to do and nothing more is spawned *)
Definition w_stuck_l := [(Begin 1 base 900 [self1; serv 1 11 [2] true 1; serv 2 12 [5] true 1], [Some 10]); (Own, no); (Exit 10, no)].
Definition w_stuck := Eval vm_compute in made w_stuck_l.
Theorem C99_boots_refuted : exists d h, reach d h /\ ~ down h /\ d_self d = [] /\ ~ In Booted (effects h) /\ (forall q, around q h -> q = 1) /\ exists e, In e (d_ents d) /\ e_restart e = true /\ e_on e = true /\ e_inst e = [Inst None None PRun].
Proof.
  exists (fst w_stuck), (snd w_stuck). split; [apply (exec_reach0 w_stuck_l w_stuck); vm_compute; reflexivity|]. split; [apply not_down; vm_compute; reflexivity|]. split; [reflexivity|]. split; [vm_compute; intuition discriminate|]. split; [apply only_around; vm_compute; reflexivity|].
  exists (serv 1 11 [2] true 1). split; [vm_compute; tauto|]. repeat (split; [reflexivity|]). reflexivity.
Qed.
Definition w_fail_l := [(Begin 1 base 900 [self1; serv 1 11 [2] true 2], [None; Some 10]); (Own, no); (Connect (Conn 10 110 false None), no)].
Definition w_fail := Eval vm_compute in made w_fail_l.
Example ex_failed : exists d h ev, reach d (h ++ [(Begin 1 base 900 [self1; serv 1 11 [2] true 2], ev)]) /\ In (Failed 1) ev /\ In (Spawned 1 10) ev.
Proof. exists (fst (made (firstn 1 w_fail_l))), [], [Begun [1]; Failed 1; Spawned 1 10]. split; [apply (exec_reach_upto w_fail_l w_fail 1); vm_compute; reflexivity|]. cbn. tauto. Qed.
Example ex_fail_boots : exists d h, reach d h /\ In (Failed 1) (effects h) /\ In Booted (effects h).
Proof. exists (fst w_fail), (snd w_fail). split; [apply (exec_reach0 w_fail_l w_fail); vm_compute; reflexivity|]. vm_compute. tauto. Qed.
Example ex_goes_on : exists d0 h o i d ev, reach d0 h /\ possible h o i /\ step o i d0 = Some (d, ev) /\ tells d0 i ev /\ going_on [2; 5] (h ++ [(i, ev)]).
Proof.
  exists (state_at 4), (upto 4), no, (Connect (Conn 20 120 false None)), (state_at 5), (sent 4). split; [apply ex_reach|]. split; [apply possible_sound; vm_compute; reflexivity|]. split; [vm_compute; reflexivity|]. split; [vm_compute; tauto|].
  eexists [Begun [1]; Spawned 1 10; Ended [1]], _. split; vm_compute; reflexivity.
Qed.
Example ex_ended : exists d h i ev e, reach d (h ++ [(i, ev)]) /\ In (Ended [2; 5]) ev /\ In e (d_ents d) /\ In (e_id e) [2; 5] /\ length (e_inst e) = 2%nat.
Proof. exists (state_at 8), (upto 7), (Connect (Conn 21 121 false None)), (sent 7), (Ent 2 Server 21 [6] true true [Inst (Some 20) (Some 120) PRun; Inst (Some 21) (Some 121) PRun]). split; [exact (ex_reach 8)|]. split; [vm_compute; tauto|]. split; [vm_compute; tauto|]. split; [cbn; auto|reflexivity]. Qed.
Example ex_spawned : exists d h i ev, reach d (h ++ [(i, ev)]) /\ (forall q, i = Exit q -> In Booted (effects h) -> down h) /\ ev = [Ended [2; 5]; Begun [3; 4]; Spawned 3 30] ++ Spawned 4 40 :: [Answer 21 121 true].
Proof. exists (state_at 8), (upto 7), (Connect (Conn 21 121 false None)), (sent 7). split; [exact (ex_reach 8)|]. split; [discriminate|vm_compute; reflexivity]. Qed.

(* ------------------------------------------------------------------ C100: the shutdown *)
(* after it's told to: what's going on ends, each batch is ended in the opposite order, one at a time, and then it's done. It doesn't stop before that *)
Theorem C100_sequence : forall d h p gs m es ev r, reach d (h ++ (Terminate, ev) :: r) -> begun p gs m es h -> ~ In Terminate (inputs r) ->
  exists first more, (forall b, going_on b h -> first = [Ended b]) /\ ((forall b, ~ going_on b h) -> first = []) /\ (exists l, more = flat_map (fun b => [Begun b; Ended b; Done WScale]) l) /\
    prefix (marks (ev ++ effects r)) (first ++ in_turn (rev (boot_order gs m es)) ++ [Done WShutdown] ++ more) /\ ((forall l, ~ In (ScaleTo l) (inputs r)) -> more = []) /\
    (stopped d = true -> marks (ev ++ effects r) = first ++ in_turn (rev (boot_order gs m es)) ++ [Done WShutdown] ++ more).
Proof. exact shutdown_sequence. Qed.
(* when a batch has ended there are no instances of it left *)
Theorem C100_ended : forall d h p gs m es ev r b e, reach d (h ++ (Terminate, ev) :: r) -> begun p gs m es h -> (forall l, ~ In (ScaleTo l) (inputs r)) -> In (Ended b) (ev ++ effects r) -> In e (d_ents d) -> In (e_id e) b -> e_id e <> m -> e_inst e = [].
Proof. exact down_ended. Qed.
(* when it stops, each process that was connected (or an executable's) when it was told to shut down has ended. Missing: those that hadn't connected, see [C100_left_refuted], and a scale that's asked for after that *)
Theorem C100_gone_partial : forall d0 h d ev r p gs m es e g x q, reach d0 h -> begun p gs m es h -> leads h d0 d ((Terminate, ev) :: r) -> stopped d = true -> ~ In Terminate (inputs r) -> (forall l, ~ In (ScaleTo l) (inputs r)) ->
  In e (d_ents d0) -> in_group gs e g -> e_id e <> m -> In x (e_inst e) -> has_process (e_kind e) x -> i_pid x = Some q -> In (Exit q) (inputs r).
Proof. exact down_gone. Qed.
(* when a batch begins, each instance of it that's to end is told to. One that's not enabled has none *)
Theorem C100_told : forall d h i ev b e x, reach d (h ++ [(i, ev)]) -> In (Begun b) ev -> In e (d_ents d) -> In (e_id e) b -> e_on e = true -> In x (e_inst e) -> i_want x = PExit -> has_process (e_kind e) x -> told (e_kind e) x ev (d_self d).
Proof. exact batch_told. Qed.
(* when the service manager has prepared them they're asked, or told with a signal if they have no device; and if there's no service manager the manager does it itself *)
Theorem C100_asks : forall d h l ev, reach d (h ++ [(Prepared l, ev)]) -> forall e, In e ev <-> exists p q, In (p, q) l /\ e = match q with Some a => Ask a | None => Term p end.
Proof. exact prepared_asks. Qed.
Theorem C100_asks_own : forall d0 h o d ev l r, reach d0 h -> d_self d0 = MReply l :: r -> possible h o Own -> step o Own d0 = Some (d, ev) -> forall p q, In (p, Some q) l -> In (Ask q) ev.
Proof. exact own_asks. Qed.
(* and no other is told: a signal is sent only to the process of an executable's instance that's to end, or that the service manager says is prepared and has no device *)
Theorem C100_only_term : forall d h i ev p, reach d (h ++ [(i, ev)]) -> In (Term p) ev -> must_end d p None \/ exists l, i = Prepared l /\ In (p, None) l.
Proof. exact term_only. Qed.
(* what's asked to end has been prepared by the service manager, or it was to end at some time before (when there was no service manager) *)
Theorem C100_only_ask : forall d h i ev q, reach d (h ++ [(i, ev)]) -> In (Ask q) ev ->
  (exists l p, i = Prepared l /\ In (p, Some q) l) \/ i = Own /\ exists d1 a b p, h = a ++ b /\ reach d1 a /\ must_end d1 p (Some q).
Proof. exact ask_only. Qed.
(* what the service manager is asked to prepare is to end *)
Theorem C100_only_prepare : forall d h i ev s l, reach d (h ++ [(i, ev)]) -> In (Prepare s l) ev -> forall p q, In (p, q) l -> must_end d p (Some q).
Proof. exact prepares_only. Qed.
(* it's the service manager that's asked: the one approved as that singleton (0), that hasn't ended. Missing: processes that connect twice *)
Theorem C100_prepare_partial : forall d h i ev s l, reach d (h ++ [(i, ev)]) -> connects_once (h ++ [(i, ev)]) -> In (Prepare s l) ev -> exists p, holds 0 p s (h ++ [(i, ev)]).
Proof. exact prepares_at. Qed.
Lemma upto_23 : upto 24 = upto 23 ++ [(ScaleTo [(21, 1); (23, 0)], sent 23)]. Proof. vm_compute. reflexivity. Qed.
Example ex_only : exists d h i ev, reach d (h ++ [(i, ev)]) /\ connects_once (h ++ [(i, ev)]) /\ In (Term 40) ev /\ In (Prepare 110 [(21, 121)]) ev.
Proof.
  exists (state_at 24), (upto 23), (ScaleTo [(21, 1); (23, 0)]), (sent 23). rewrite <- upto_23. split; [exact (ex_reach 24)|]. split; [apply once_sound; vm_compute; reflexivity|]. split; vm_compute; tauto.
Qed.
(* no process that connects is approved any more *)
Theorem C100_closed : forall d h c ev p q ok, reach d (h ++ [(Connect c, ev)]) -> down h -> In (Answer p q ok) ev -> ok = false.
Proof. exact connect_after_down. Qed.
(* it isn't so that no process is left when it stops: one that hasn't connected is forgotten, it's neither asked to end nor waited for *)
Definition w_left_l := [(Begin 1 base 900 [self1; serv 1 11 [2] true 1], [Some 10]); (Terminate, no); (Own, no)].
Definition w_left := Eval vm_compute in made w_left_l.
Theorem C100_left_refuted : exists d h id p, reach d h /\ stopped d = true /\ child id p h /\ ~ In (Term p) (effects h) /\ forall q, ~ In (Ask q) (effects h).
Proof.
  exists (fst w_left), (snd w_left), 1, 10. split; [apply (exec_reach0 w_left_l w_left); vm_compute; reflexivity|]. split; [reflexivity|]. split; [apply child_in; vm_compute; reflexivity|]. split; [vm_compute; intuition discriminate|]. intro q. vm_compute. intuition discriminate.
Qed.
(* nor that it stops: when a process had ended before it was up, there's nothing that ends the batch it was in *)
Definition w_hang_l := w_stuck_l ++ [(Terminate, no)].
Definition w_hang := Eval vm_compute in made w_hang_l.
Theorem C100_stops_refuted : exists d h, reach d h /\ In Terminate (inputs h) /\ d_self d = [] /\ (forall q, around q h -> q = 1) /\ stopped d = false.
Proof. exists (fst w_hang), (snd w_hang). split; [apply (exec_reach0 w_hang_l w_hang); vm_compute; reflexivity|]. split; [vm_compute; tauto|]. split; [reflexivity|]. split; [apply only_around; vm_compute; reflexivity|reflexivity]. Qed.
(* and a scale that's asked for after that isn't refused: a process that's to end is wanted again, it ends, and it's waited for *)
Definition w_again_l := [(Begin 1 base 900 [self1; exe 1 11 [2] true 1], [Some 10]); (Own, no); (Terminate, no); (ScaleTo [(11, 1)], no); (Exit 10, no)].
Definition w_again := Eval vm_compute in made w_again_l.
Theorem C100_scaled_refuted : exists d h l, reach d h /\ In Booted (effects h) /\ In Terminate (inputs h) /\ In (ScaleTo l) (inputs h) /\ d_self d = [] /\ (forall q, around q h -> q = 1) /\ stopped d = false.
Proof.
  exists (fst w_again), (snd w_again), [(11, 1)]. split; [apply (exec_reach0 w_again_l w_again); vm_compute; reflexivity|]. split; [vm_compute; tauto|]. split; [vm_compute; tauto|]. split; [vm_compute; tauto|]. split; [reflexivity|]. split; [apply only_around; vm_compute; reflexivity|reflexivity].
Qed.
Example ex_shutdown : exists d h ev r, reach d (h ++ (Terminate, ev) :: r) /\ begun 1 gs1 900 es1 h /\ ~ In Terminate (inputs r) /\ stopped d = true /\ marks (ev ++ effects r) = in_turn [[3; 4]; [2; 5]; [1]] ++ [Done WShutdown].
Proof. exists (state_at 38), (upto 29), (sent 29), (skipn 30 (snd ex)). split; [exact (ex_reach 38)|]. split; [eexists; eexists; reflexivity|]. split; [vm_compute; intuition discriminate|]. split; [vm_compute; reflexivity|vm_compute; reflexivity]. Qed.
Example ex_closed : exists d h ev, reach d (h ++ [(Connect (Conn 60 160 false None), ev)]) /\ down h /\ ev = [Answer 60 160 false].
Proof. exists (state_at 31), (upto 30), (sent 30). split; [exact (ex_reach 31)|]. split; [left; vm_compute; tauto|vm_compute; reflexivity]. Qed.

Lemma ex_leads : leads (upto 29) (state_at 29) (state_at 38) (skipn 29 (snd ex)).
Proof.
  assert (E : exec (skipn 29 ex_l) (state_at 29) (upto 29 ++ []) = Some (state_at 38, snd ex)) by (vm_compute; reflexivity).
  destruct (exec_leads (upto 29) (state_at 29) _ (state_at 29) [] _ _ (leads_none _ _) E) as (r & X & L).
  assert (Y : skipn 29 (snd ex) = r); [|now rewrite Y].
  apply (f_equal (skipn 29)) in X. rewrite X. rewrite skipn_app. assert (N : length (upto 29) = 29%nat) by (vm_compute; reflexivity).
  rewrite skipn_all2 by (rewrite N; auto with arith). rewrite N. reflexivity.
Qed.
Definition e21 := Ent 2 Server 21 [6] true true [Inst (Some 22) (Some 122) PRun].
Example ex_gone : exists d0 h d ev r, reach d0 h /\ begun 1 gs1 900 es1 h /\ leads h d0 d ((Terminate, ev) :: r) /\ stopped d = true /\ ~ In Terminate (inputs r) /\ (forall l, ~ In (ScaleTo l) (inputs r)) /\ In e21 (d_ents d0) /\ in_group gs1 e21 6 /\ In (Exit 22) (inputs r).
Proof.
  exists (state_at 29), (upto 29), (state_at 38), (sent 29), (skipn 30 (snd ex)). split; [apply ex_reach|]. split; [eexists; eexists; reflexivity|]. split; [exact ex_leads|]. split; [vm_compute; reflexivity|]. split; [vm_compute; intuition discriminate|].
  split; [intro l; vm_compute; intuition discriminate|]. split; [vm_compute; tauto|]. split; [split; vm_compute; tauto|vm_compute; tauto].
Qed.
Example ex_emptied : exists d h ev r e, reach d (h ++ (Terminate, ev) :: r) /\ begun 1 gs1 900 es1 h /\ (forall l, ~ In (ScaleTo l) (inputs r)) /\ In (Ended [3; 4]) (ev ++ effects r) /\ In e (d_ents d) /\ e_id e = 3.
Proof.
  exists (state_at 34), (upto 29), (sent 29), (skipn 30 (upto 34)), (Ent 3 Server 22 [7] false true []). split; [exact (ex_reach 34)|]. split; [eexists; eexists; reflexivity|]. split; [intro l; vm_compute; intuition discriminate|]. split; [vm_compute; tauto|]. split; [vm_compute; tauto|reflexivity].
Qed.
Example ex_told : exists d h ev e x, reach d (h ++ [(ScaleTo [(21, 1); (23, 0)], ev)]) /\ In (Begun [2; 4]) ev /\ In e (d_ents d) /\ e_id e = 4 /\ In x (e_inst e) /\ i_want x = PExit /\ i_pid x = Some 40 /\ has_process (e_kind e) x /\ In (Term 40) ev.
Proof.
  exists (state_at 24), (upto 23), (sent 23), (Ent 4 Exec 23 [7] true true [Inst (Some 40) None PExit]), (Inst (Some 40) None PExit). split; [exact (ex_reach 24)|]. split; [vm_compute; tauto|]. split; [vm_compute; tauto|]. split; [reflexivity|]. split; [now left|]. split; [reflexivity|]. split; [reflexivity|]. split; [exists 40; reflexivity|vm_compute; tauto].
Qed.
Example ex_asks : exists d h ev, reach d (h ++ [(Prepared [(21, Some 121)], ev)]) /\ ev = [Ask 121].
Proof. exists (state_at 25), (upto 24), (sent 24). split; [exact (ex_reach 25)|vm_compute; reflexivity]. Qed.
(* with no service manager *)
Definition w_own_l := [(Begin 1 base 900 [self1; serv 1 11 [2] false 1], [Some 10]); (Own, no); (Connect (Conn 10 110 false None), no); (Terminate, no)].
Definition w_own := Eval vm_compute in made w_own_l.
Example ex_asks_own : exists d0 h o d ev r, reach d0 h /\ d_self d0 = MReply [(10, Some 110)] :: r /\ possible h o Own /\ step o Own d0 = Some (d, ev) /\ ev = [Ask 110].
Proof.
  exists (fst w_own), (snd w_own), no. do 2 eexists. exists []. split; [apply (exec_reach0 w_own_l w_own); vm_compute; reflexivity|]. split; [reflexivity|]. split; [apply possible_sound; vm_compute; reflexivity|]. split; [vm_compute; reflexivity|reflexivity].
Qed.

(* ------------------------------------------------------------------ C101: connects and singletons *)
(* each connect is answered at once, and only that *)
Theorem C101_answered : forall d h i ev, reach d (h ++ [(i, ev)]) ->
  match i with
  | Connect c => exists a ok b, ev = a ++ Answer (c_pid c) (c_ipc c) ok :: b /\ forall p q o, ~ In (Answer p q o) (a ++ b)
  | _ => forall p q o, ~ In (Answer p q o) ev
  end.
Proof. exact connect_answered. Qed.
(* at any time one process at most has been approved as a singleton *)
Theorem C101_one : forall d h s p q p' q', reach d h -> holds s p q h -> holds s p' q' h -> p = p' /\ q = q'.
Proof. exact singleton_one. Qed.
Theorem C101_approved : forall d h c ev p q, reach d (h ++ [(Connect c, ev)]) -> In (Answer p q true) ev -> p = c_pid c /\ q = c_ipc c /\ ~ down h /\ forall s p' q', c_sing c = Some s -> ~ holds s p' q' h.
Proof. exact connect_approved. Qed.
(* it's denied only when it's shutting down, or another is that singleton. Missing: processes that connect twice, see [C101_denied_refuted] *)
Theorem C101_denied_partial : forall d h c ev p q, reach d (h ++ [(Connect c, ev)]) -> connects_once h -> In (Answer p q false) ev -> p = c_pid c /\ q = c_ipc c /\ (down h \/ exists s p' q', c_sing c = Some s /\ holds s p' q' h).
Proof. exact connect_denied. Qed.
(* one that is two singletons leaves one of them behind when it ends *)
Definition w_two_l := [(Begin 1 base 900 [self1], no); (Connect (Conn 50 150 false (Some 5)), no); (Connect (Conn 50 150 false (Some 6)), no); (Exit 50, no); (Connect (Conn 51 151 false (Some 6)), no)].
Definition w_two := Eval vm_compute in made w_two_l.
Theorem C101_denied_refuted : exists d h c ev s, reach d (h ++ [(Connect c, ev)]) /\ In (Answer (c_pid c) (c_ipc c) false) ev /\ ~ down h /\ c_sing c = Some s /\ forall p q, ~ holds s p q h.
Proof.
  exists (fst w_two), (firstn 4 (snd w_two)), (Conn 51 151 false (Some 6)), [Answer 51 151 false], 6. split; [apply (exec_reach0 w_two_l w_two); vm_compute; reflexivity|]. split; [cbn; auto|]. split; [apply not_down; vm_compute; reflexivity|]. split; [reflexivity|]. apply nobody_holds; vm_compute; reflexivity.
Qed.
Example ex_one : exists d h, reach d h /\ holds 5 30 130 h /\ connects_once h.
Proof. exists (state_at 23), (upto 23). split; [exact (ex_reach 23)|]. split; [apply holds_in; vm_compute; reflexivity|apply once_sound; vm_compute; reflexivity]. Qed.
Example ex_approved : exists d h c ev, reach d (h ++ [(Connect c, ev)]) /\ In (Answer 50 150 true) ev /\ c_sing c = Some 7.
Proof. exists (state_at 18), (upto 17), (Conn 50 150 false (Some 7)), (sent 17). split; [exact (ex_reach 18)|]. split; [vm_compute; tauto|reflexivity]. Qed.
Example ex_denied : exists d h c ev, reach d (h ++ [(Connect c, ev)]) /\ connects_once h /\ In (Answer 31 131 false) ev /\ ~ down h.
Proof. exists (state_at 17), (upto 16), (Conn 31 131 false (Some 5)), (sent 16). split; [exact (ex_reach 17)|]. split; [apply once_sound; vm_compute; reflexivity|]. split; [vm_compute; tauto|apply not_down_ex; lia]. Qed.

(* one that's denied, when it isn't shutting down: nothing else is done for it (the error event for subscribers isn't modelled); it's no instance's any more, and one is wanted of what it was an instance of; the others are as they were *)
Theorem C101_denied_scales : forall d0 h o c d ev, reach d0 h -> possible h o (Connect c) -> step o (Connect c) d0 = Some (d, ev) -> In (Answer (c_pid c) (c_ipc c) false) ev -> ~ down h ->
  ev = [Answer (c_pid c) (c_ipc c) false] /\
  forall e, In e (d_ents d0) ->
    ((forall x, In x (e_inst e) -> i_pid x <> Some (c_pid c)) -> In e (d_ents d)) /\
    ((exists x, In x (e_inst e) /\ i_pid x = Some (c_pid c)) ->
      exists e', In e' (d_ents d) /\ conf e' = conf e /\ wanted e' = 1%nat /\ forall y, In y (e_inst e') -> i_pid y <> Some (c_pid c)).
Proof. exact denied_scales. Qed.
Example ex_denied_scales : exists e e', In e (d_ents (state_at 16)) /\ wanted e = 3%nat /\ (exists x, In x (e_inst e) /\ i_pid x = Some 31) /\ In e' (d_ents (state_at 17)) /\ conf e' = conf e /\ wanted e' = 1%nat /\
  reach (state_at 16) (upto 16) /\ possible (upto 16) no (Connect (Conn 31 131 false (Some 5))) /\ step no (Connect (Conn 31 131 false (Some 5))) (state_at 16) = Some (state_at 17, sent 16) /\ In (Answer 31 131 false) (sent 16) /\ ~ down (upto 16).
Proof.
  exists (Ent 3 Server 22 [7] false true [Inst (Some 30) (Some 130) PRun; Inst (Some 31) None PRun; Inst (Some 32) None PRun]), (Ent 3 Server 22 [7] false true [Inst (Some 30) (Some 130) PRun]). split; [vm_compute; tauto|]. split; [reflexivity|].
  split; [eexists; split; [right; left; reflexivity|reflexivity]|]. split; [vm_compute; tauto|]. split; [reflexivity|]. split; [reflexivity|]. split; [exact (ex_reach 16)|]. split; [split; [intro X; vm_compute in X; discriminate|split; [constructor|contradiction]]|].
  split; [vm_compute; reflexivity|]. split; [vm_compute; tauto|]. apply not_down_ex; lia.
Qed.
(* it isn't so that what's wanted is then started, in place of one that's denied: two servers are the same singleton, the second is denied, it's wanted and isn't spawned; its batch doesn't end and the boot stands still when the process has ended *)
Definition w_deny_l := [(Begin 1 base 900 [self1; serv 1 11 [2] false 1; serv 2 12 [5] true 1], [Some 10]); (Own, no); (Connect (Conn 10 110 false (Some 5)), [Some 20]); (Own, no); (Connect (Conn 20 120 false (Some 5)), no); (Exit 20, no)].
Definition w_deny := Eval vm_compute in made w_deny_l.
Theorem C101_started_refuted : exists d h, reach d h /\ ~ down h /\ d_self d = [] /\ ~ In Booted (effects h) /\ In (Answer 20 120 false) (effects h) /\ (forall q, around q h -> q = 1 \/ q = 10) /\ exists e, In e (d_ents d) /\ wanted e = 1%nat /\ e_on e = true /\ e_inst e = [Inst None None PRun].
Proof.
  exists (fst w_deny), (snd w_deny). split; [apply (exec_reach0 w_deny_l w_deny); vm_compute; reflexivity|]. split; [apply not_down; vm_compute; reflexivity|]. split; [reflexivity|]. split; [vm_compute; intuition discriminate|]. split; [vm_compute; tauto|].
  split; [intros q A; apply around_arounds in A; vm_compute in A; intuition auto|]. exists (serv 2 12 [5] true 1). split; [vm_compute; tauto|]. repeat (split; [reflexivity|]). reflexivity.
Qed.

(* one that's approved: if it's an instance of a server that has its device from then on; the others that have processes are as they were, and as many are wanted as before *)
Theorem C101_connected : forall d0 h o c d ev e, reach d0 h -> possible h o (Connect c) -> step o (Connect c) d0 = Some (d, ev) -> In (Answer (c_pid c) (c_ipc c) true) ev -> In e (d_ents d0) ->
  exists e', In e' (d_ents d) /\ conf e' = conf e /\ wanted e' = wanted e /\
    (forall x, In x (e_inst e) -> i_pid x <> None -> i_pid x <> Some (c_pid c) \/ e_kind e = Exec -> In x (e_inst e')) /\
    (forall x, In x (e_inst e) -> i_pid x = Some (c_pid c) -> e_kind e = Server -> In (Inst (Some (c_pid c)) (Some (c_ipc c)) (i_want x)) (e_inst e')).
Proof. exact approved_connected. Qed.
Example ex_connected : reach (state_at 10) (upto 10) /\ possible (upto 10) no (Connect (Conn 30 130 false (Some 5))) /\ step no (Connect (Conn 30 130 false (Some 5))) (state_at 10) = Some (state_at 11, sent 10) /\ In (Answer 30 130 true) (sent 10) /\
  In (Ent 3 Server 22 [7] false true [Inst (Some 30) None PRun]) (d_ents (state_at 10)) /\ In (Ent 3 Server 22 [7] false true [Inst (Some 30) (Some 130) PRun]) (d_ents (state_at 11)).
Proof.
  split; [exact (ex_reach 10)|]. split; [split; [intro X; vm_compute in X; discriminate|split; [constructor|contradiction]]|]. split; [vm_compute; reflexivity|]. split; [vm_compute; tauto|]. split; vm_compute; tauto.
Qed.

(* ------------------------------------------------------------------ C102: lookups *)
Theorem C102_once : forall d h k, reach d h -> (count (is_found k) (effects h) <= asked k h)%nat.
Proof. exact lookup_once. Qed.
(* one that's direct is answered at once, and so is each when it's shutting down *)
Theorem C102_direct : forall d h l ev, reach d (h ++ [(Lookup l, ev)]) -> asks_for l -> l_direct l = true \/ down h -> exists p q, ev = [Found (l_ipc l) (l_corr l) p q].
Proof. exact lookup_direct. Qed.
(* one that waits for a singleton doesn't wait when there is one *)
Theorem C102_waits : forall d h l s p q, reach d h -> waits l h -> l_id l = Some s -> ~ holds s p q h.
Proof. exact lookup_vacant. Qed.
(* and it's answered as soon as what it waits for connects *)
Theorem C102_connect : forall d h c ev p q l, reach d (h ++ [(Connect c, ev)]) -> In (Answer p q true) ev -> waits l h -> (l_id l = None /\ l_proc l = Some (c_pid c)) \/ (exists s, l_id l = Some s /\ c_sing c = Some s) ->
  exists x y, In (Found (l_ipc l) (l_corr l) x y) ev.
Proof. exact lookup_on_connect. Qed.
(* an answer is to a lookup: for a singleton the process that is that, or none if there's none; for a process it's that process. There's only none if it's direct or it's shutting down.
   The one that asked hasn't ended since.
   Missing: processes that connect twice *)
Theorem C102_answer_partial : forall d h i ev a k p q, reach d (h ++ [(i, ev)]) -> connects_once (h ++ [(i, ev)]) -> In (Found a k p q) ev ->
  exists l, (exists x y, inputs (h ++ [(i, ev)]) = x ++ Lookup l :: y /\ ~ In (Exit (l_pid l)) y) /\ l_ipc l = a /\ l_corr l = k
    /\ (forall s, l_id l = Some s -> (exists x y, p = Some x /\ q = Some y /\ holds s x y (h ++ [(i, ev)])) \/ (p = None /\ q = None /\ (forall x y, ~ holds s x y (h ++ [(i, ev)]))))
    /\ (l_id l = None -> exists r, l_proc l = Some r /\ (p = None \/ p = Some r))
    /\ (p = None \/ q = None -> l_direct l = true \/ down h).
Proof. exact lookup_answer. Qed.
(* a process that isn't around any more isn't found. Missing: those of an executable that's restarted, see [C102_gone_refuted] *)
Theorem C102_gone_partial : forall d h l ev a k p q, reach d (h ++ [(Lookup l, ev)]) -> connects_once h -> In (Found a k (Some p) q) ev -> l_id l = None -> ~ around p h ->
  exists e, In e (d_ents d) /\ e_kind e = Exec /\ e_restart e = true /\ In (Spawned (e_id e) p) (effects h).
Proof. exact lookup_gone. Qed.
Definition l40 := Look 20 120 1000 None (Some 40) false.
Definition w_stale_l := [(Begin 1 base 900 [self1; exe 1 11 [2] true 1], [Some 40]); (Own, no); (Connect (Conn 40 140 false None), no); (Exit 40, [Some 41]); (Lookup l40, no)].
Definition w_stale := Eval vm_compute in made w_stale_l.
Theorem C102_gone_refuted : exists d h l ev p q, reach d (h ++ [(Lookup l, ev)]) /\ connects_once h /\ In (Found (l_ipc l) (l_corr l) (Some p) (Some q)) ev /\ l_id l = None /\ ~ around p h.
Proof.
  exists (fst w_stale), (firstn 4 (snd w_stale)), l40, [Found 120 1000 (Some 40) (Some 140)], 40, 140. split; [apply (exec_reach0 w_stale_l w_stale); vm_compute; reflexivity|]. split; [apply once_sound; reflexivity|]. split; [cbn; auto|]. split; [reflexivity|]. apply not_around; vm_compute; reflexivity.
Qed.
(* it isn't so that each is answered: those that wait when it's told to shut down aren't *)
Definition w_wait_l := [(Begin 1 base 900 [self1], no); (Lookup sing5, no); (Terminate, no)].
Definition w_wait := Eval vm_compute in made w_wait_l.
Theorem C102_answered_refuted : exists d h l, reach d h /\ stopped d = true /\ waits l h.
Proof.
  exists (fst w_wait), (snd w_wait), sing5. split; [apply (exec_reach0 w_wait_l w_wait); vm_compute; reflexivity|]. split; [reflexivity|]. exists (firstn 1 (snd w_wait)), [], (skipn 2 (snd w_wait)). split; [reflexivity|]. split; [left; discriminate|]. split; [vm_compute; intuition discriminate|]. intros p q. vm_compute. intuition discriminate.
Qed.
Example ex_direct : exists d h l ev, reach d (h ++ [(Lookup l, ev)]) /\ asks_for l /\ l_direct l = true /\ ev = [Found 122 1003 (Some 50) (Some 150)].
Proof. exists (state_at 21), (upto 20), (Look 22 122 1003 None (Some 50) true), (sent 20). split; [exact (ex_reach 21)|]. split; [right; discriminate|]. split; [reflexivity|vm_compute; reflexivity]. Qed.
Example ex_waits : exists d h ev, reach d (h ++ [(Connect (Conn 30 130 false (Some 5)), ev)]) /\ In (Answer 30 130 true) ev /\ waits sing5 h /\ waits proc30 h /\ connects_once (h ++ [(Connect (Conn 30 130 false (Some 5)), ev)]) /\ In (Found 120 1000 (Some 30) (Some 130)) ev /\ In (Found 120 1001 (Some 30) (Some 130)) ev.
Proof.
  exists (state_at 11), (upto 10), (sent 10). split; [exact (ex_reach 11)|]. split; [vm_compute; tauto|].
  split; [exists (upto 5), [], (skipn 6 (upto 10)); split; [reflexivity|]; split; [left; discriminate|]; split; [vm_compute; intuition discriminate|]; intros p q; vm_compute; intuition discriminate|].
  split; [exists (upto 6), [], (skipn 7 (upto 10)); split; [reflexivity|]; split; [right; discriminate|]; split; [vm_compute; intuition discriminate|]; intros p q; vm_compute; intuition discriminate|].
  split; [apply once_sound; vm_compute; reflexivity|]. vm_compute. tauto.
Qed.

(* ------------------------------------------------------------------ C103: processes that end *)
(* a process that has ended isn't that of an instance, but if its pid is given to a new one *)
Theorem C103_forgotten : forall d h p ev e, reach d (h ++ [(Exit p, ev)]) -> In e (d_ents d) -> (exists i, In i (e_inst e) /\ i_pid i = Some p) -> In (Spawned (e_id e) p) ev.
Proof. exact exit_forgotten. Qed.
(* the process of an instance is one that was spawned for it and hasn't ended (or the domain manager itself); no two have the same *)
Theorem C103_instances : forall d h e i p, reach d h -> In e (d_ents d) -> In i (e_inst e) -> i_pid i = Some p -> child (e_id e) p h \/ exists gs es, In (Begin p gs (e_id e) es) (inputs h).
Proof. exact instances_children. Qed.
(* when it's up, and one ends that's wanted and is to be restarted, another is spawned at once, or that fails. Missing: before it's up, see [C99_boots_refuted] *)
Theorem C103_restarted_partial : forall d d0 h p ev e q, reach d (h ++ [(Exit p, ev)]) -> reach d0 h -> (exists o, step o (Exit p) d0 = Some (d, ev)) -> In Booted (effects h) -> ~ down h ->
  In e (d_ents d0) -> e_restart e = true -> (e_kind e = Server -> e_on e = true) -> In (Inst (Some p) q PRun) (e_inst e) -> In (Failed (e_id e)) ev \/ exists p', In (Spawned (e_id e) p') ev.
Proof. exact exit_restarts. Qed.
(* one that's wanted and isn't to be restarted isn't wanted any more when it has ended; otherwise as many are wanted as before *)
Theorem C103_counts : forall d0 h o p d ev e, reach d0 h -> possible h o (Exit p) -> step o (Exit p) d0 = Some (d, ev) -> In e (d_ents d0) ->
  exists e', In e' (d_ents d) /\ conf e' = conf e /\
    ((exists q, In (Inst (Some p) q PRun) (e_inst e)) -> e_restart e = false -> S (wanted e') = wanted e) /\
    (~ (exists q, In (Inst (Some p) q PRun) (e_inst e)) \/ e_restart e = true -> wanted e' = wanted e).
Proof. exact exit_counts. Qed.
(* whatever happens, each process that's connected, or is an executable's, but the one that ends or connects, is that of an instance of the same as before. Missing: servers' that haven't connected, see [C104_keeps_refuted] *)
Theorem C103_kept_partial : forall d0 h o i d ev e x, reach d0 h -> possible h o i -> step o i d0 = Some (d, ev) -> (forall p gs m es, i <> Begin p gs m es) -> In e (d_ents d0) -> In x (e_inst e) -> has_process (e_kind e) x ->
  (forall p, i = Exit p -> i_pid x <> Some p) -> (forall c, i = Connect c -> i_pid x <> Some (c_pid c)) ->
  exists e' x', In e' (d_ents d) /\ conf e' = conf e /\ In x' (e_inst e') /\ i_pid x' = i_pid x /\ i_ipc x' = i_ipc x.
Proof. exact step_keeps. Qed.
Example ex_kept : reach (state_at 11) (upto 11) /\ possible (upto 11) [Some 22] (Exit 20) /\ step [Some 22] (Exit 20) (state_at 11) = Some (state_at 12, sent 11) /\ In (Ent 2 Server 21 [6] true true [Inst (Some 20) (Some 120) PRun; Inst (Some 21) (Some 121) PRun]) (d_ents (state_at 11)) /\ has_process Server (Inst (Some 21) (Some 121) PRun).
Proof.
  split; [exact (ex_reach 11)|]. split.
  - pose proof (ex_reach 12) as R. change (upto 12) with (upto 11 ++ [(Exit 20, sent 11)]) in R. split; [split; [intro X; vm_compute in X; discriminate|intros gs m es X; vm_compute in X; intuition discriminate]|].
    split; [repeat constructor; cbn; tauto|]. intros p [E|[]]. injection E as <-. intro A. apply around_arounds in A. vm_compute in A. intuition discriminate.
  - split; [vm_compute; reflexivity|]. split; [vm_compute; tauto|]. exists 21, 121. auto.
Qed.
(* a process is killed when that's asked for, if it hasn't asked to be left alone (and isn't the manager itself), and never otherwise *)
Theorem C103_killed : forall d h i ev p, reach d (h ++ [(i, ev)]) -> In (Kill p) ev <-> i = Assassinate p true /\ ~ white p h.
Proof. exact killed. Qed.
Example ex_forgotten : exists d h ev e, reach d (h ++ [(Exit 20, ev)]) /\ In e (d_ents d) /\ (exists i, In i (e_inst e) /\ i_pid i = Some 22) /\ child (e_id e) 22 (h ++ [(Exit 20, ev)]).
Proof. exists (state_at 12), (upto 11), (sent 11), (Ent 2 Server 21 [6] true true [Inst (Some 22) None PRun; Inst (Some 21) (Some 121) PRun]). split; [exact (ex_reach 12)|]. split; [vm_compute; tauto|]. split; [eexists; split; [left; reflexivity|reflexivity]|]. apply child_in; vm_compute; reflexivity. Qed.
(* a pid can be given again at once *)
Definition w_pid_l := [(Begin 1 base 900 [self1; exe 1 11 [2] true 1], [Some 40]); (Own, no); (Exit 40, [Some 40])].
Definition w_pid := Eval vm_compute in made w_pid_l.
Example ex_pid : exists d h ev e, reach d (h ++ [(Exit 40, ev)]) /\ In e (d_ents d) /\ (exists i, In i (e_inst e) /\ i_pid i = Some 40).
Proof. exists (fst w_pid), (firstn 2 (snd w_pid)), [Spawned 1 40], (Ent 1 Exec 11 [2] true true [Inst (Some 40) None PRun]). split; [apply (exec_reach0 w_pid_l w_pid); vm_compute; reflexivity|]. split; [vm_compute; tauto|]. eexists. split; [left; reflexivity|reflexivity]. Qed.
Example ex_restarted : exists d d0 h ev e, reach d (h ++ [(Exit 20, ev)]) /\ reach d0 h /\ (exists o, step o (Exit 20) d0 = Some (d, ev)) /\ In Booted (effects h) /\ ~ down h /\ In e (d_ents d0) /\ e_restart e = true /\ e_on e = true /\ In (Inst (Some 20) (Some 120) PRun) (e_inst e).
Proof.
  exists (state_at 12), (state_at 11), (upto 11), (sent 11), (Ent 2 Server 21 [6] true true [Inst (Some 20) (Some 120) PRun; Inst (Some 21) (Some 121) PRun]). split; [exact (ex_reach 12)|]. split; [exact (ex_reach 11)|]. split; [exists [Some 22]; vm_compute; reflexivity|]. split; [vm_compute; tauto|]. split; [apply not_down_ex; lia|]. split; [vm_compute; tauto|]. split; [reflexivity|]. split; [reflexivity|]. cbn. auto.
Qed.

Lemma ex_not_white : ~ white 50 (upto 27).
Proof. intro W. pose proof (proj1 (white_list _ _ 50 (ex_reach 27)) W) as V. clear W. vm_compute in V. intuition discriminate. Qed.
Example ex_killed : exists d h ev, reach d (h ++ [(Assassinate 50 true, ev)]) /\ ~ white 50 h /\ ev = [Kill 50].
Proof. exists (state_at 28), (upto 27), (sent 27). split; [exact (ex_reach 28)|]. split; [exact ex_not_white|vm_compute; reflexivity]. Qed.
Lemma ex_not_white_22 : ~ white 22 (upto 27).
Proof.
  intro W. pose proof (proj1 (white_list _ _ 22 (ex_reach 27)) W) as V. clear W. vm_compute in V. intuition discriminate.
Qed.
Example ex_white : white 10 (upto 27) /\ white 1 (upto 27) /\ ~ white 22 (upto 27).
Proof. split; [|split]; [refine (proj2 (white_list _ _ _ (ex_reach 27)) _); vm_compute; tauto..|]. apply ex_not_white_22. Qed.
Definition w_count_l := [(Begin 1 base 900 [self1; exe 1 11 [2] false 2], [Some 40; Some 41]); (Own, no); (Exit 40, no)].
Definition w_count := Eval vm_compute in made w_count_l.
Example ex_counts : exists d0 h o d ev e q, reach d0 h /\ possible h o (Exit 40) /\ step o (Exit 40) d0 = Some (d, ev) /\ In e (d_ents d0) /\ In (Inst (Some 40) q PRun) (e_inst e) /\ e_restart e = false /\ wanted e = 2%nat.
Proof.
  exists (fst (made (firstn 2 w_count_l))), (firstn 2 (snd w_count)), no. do 2 eexists. exists (Ent 1 Exec 11 [2] false true [Inst (Some 40) None PRun; Inst (Some 41) None PRun]), None. split; [apply (exec_reach_upto w_count_l w_count 2); vm_compute; reflexivity|]. split; [apply possible_sound; vm_compute; reflexivity|].
  split; [vm_compute; reflexivity|]. split; [vm_compute; tauto|]. split; [cbn; auto|]. split; reflexivity.
Qed.

(* ------------------------------------------------------------------ C104: the number of instances *)
Theorem C104_wanted : forall n e e', scale n e = Some e' -> Z.of_nat (wanted e') = n.
Proof. exact scale_wanted. Qed.
(* to more: those there are stay, and there are new ones without a process; all are wanted *)
Theorem C104_more : forall n e e', scale n e = Some e' -> Z.of_nat (length (e_inst e)) < n ->
  map proc (e_inst e') = map proc (e_inst e) ++ repeat (None, None) (Z.to_nat n - length (e_inst e)) /\ forall i, In i (e_inst e') -> i_want i = kept_want e.
Proof. exact scale_more. Qed.
(* to fewer: those that run are kept before those that don't; of the others those that have a process stay until that ends, and aren't wanted *)
Theorem C104_less : forall n e e', scale n e = Some e' -> 0 <= n <= Z.of_nat (length (e_inst e)) ->
  exists kept rest, Permutation (e_inst e) (kept ++ rest) /\ length kept = Z.to_nat n
    /\ ((exists i, In i rest /\ i_want i = PRun /\ has_process (e_kind e) i) -> forall i, In i kept -> i_want i = PRun /\ has_process (e_kind e) i)
    /\ exists out, e_inst e' = map (fun i => Inst (i_pid i) (i_ipc i) (kept_want e)) kept ++ out
       /\ (forall i, In i out -> i_want i = PExit /\ has_process (e_kind e) i /\ In (proc i) (map proc rest)) /\ (forall i, In i rest -> has_process (e_kind e) i -> In (proc i) (map proc out)).
Proof. exact scale_less. Qed.
(* no process that's connected (or is an executable's) is lost. Missing: those that aren't connected yet, see [C104_keeps_refuted] *)
Theorem C104_keeps_partial : forall n e e' i, scale n e = Some e' -> In i (e_inst e) -> has_process (e_kind e) i -> In (proc i) (map proc (e_inst e')).
Proof. exact scale_keeps. Qed.
Theorem C104_new : forall n e e' i, scale n e = Some e' -> In i (e_inst e') -> i_pid i <> None -> In (proc i) (map proc (e_inst e)).
Proof. exact scale_new. Qed.
Theorem C104_conf : forall n e e', scale n e = Some e' -> conf e' = conf e.
Proof. exact scale_conf'. Qed.
Theorem C104_undefined : forall n e, scale n e = None <-> n < 0.
Proof. exact scale_undefined. Qed.
(* that is what a user can ask for *)
Definition w_neg_l := [(Begin 1 base 900 [self1; exe 1 11 [2] true 1], [Some 40])].
Definition w_neg := Eval vm_compute in made w_neg_l.
Theorem C104_negative_refuted : exists d h l, reach d h /\ possible h [] (ScaleTo l) /\ step [] (ScaleTo l) d = None.
Proof. exists (fst w_neg), (snd w_neg), [(11, -1)]. split; [apply (exec_reach0 w_neg_l w_neg); vm_compute; reflexivity|]. split; [apply possible_sound; vm_compute; reflexivity|vm_compute; reflexivity]. Qed.
(* a process that was spawned, and hasn't connected when its server is scaled in, is no instance's any more: it's approved when it connects, and it stays *)
Definition w_lost_l := [(Begin 1 base 900 [self1; serv 1 11 [2] true 1], [Some 10]); (ScaleTo [(11, 0)], no); (Own, no); (Connect (Conn 10 110 false None), no)].
Definition w_lost := Eval vm_compute in made w_lost_l.
Theorem C104_keeps_refuted : exists d h id p q, reach d h /\ child id p h /\ joined p q h /\ In (ScaleTo [(11, 0)]) (inputs h) /\ d_tasks d = [] /\ (forall e i, In e (d_ents d) -> In i (e_inst e) -> i_pid i <> Some p) /\ ~ In (Term p) (effects h) /\ forall r, ~ In (Ask r) (effects h).
Proof.
  exists (fst w_lost), (snd w_lost), 1, 10, 110. split; [apply (exec_reach0 w_lost_l w_lost); vm_compute; reflexivity|]. split; [apply child_in; vm_compute; reflexivity|]. split; [apply (joined_here 10 110 (firstn 3 (snd w_lost)) (Conn 10 110 false None) [Answer 10 110 true]); cbn; auto|]. split; [vm_compute; tauto|]. split; [reflexivity|].
  split; [|split; [vm_compute; intuition discriminate|intro r; vm_compute; intuition discriminate]]. intros e i J K. vm_compute in J. destruct J as [<-|[<-|[]]]; cbn in K; [destruct K as [<-|[]]; discriminate|contradiction].
Qed.
Example ex_scale : exists d e, reach d (upto 15) /\ In e (d_ents d) /\ scale 1 e = Some (Ent 2 Server 21 [6] true true [Inst (Some 22) (Some 122) PRun; Inst (Some 21) (Some 121) PExit]).
Proof. exists (state_at 15), (Ent 2 Server 21 [6] true true [Inst (Some 22) (Some 122) PRun; Inst (Some 21) (Some 121) PRun]). split; [exact (ex_reach 15)|]. split; [vm_compute; tauto|reflexivity]. Qed.
Example ex_more : exists e, scale 3 (serv 3 22 [7] false 1) = Some e /\ Z.of_nat (length (e_inst (serv 3 22 [7] false 1))) < 3 /\ wanted e = 3%nat.
Proof. eexists. split; [reflexivity|]. split; [reflexivity|reflexivity]. Qed.

(* what's asked for: of those with the names, as many are wanted as is asked for first; of the others as many as before, and each that has a process stays as it is *)
Theorem C104_request : forall d0 h o l d ev e, reach d0 h -> possible h o (ScaleTo l) -> step o (ScaleTo l) d0 = Some (d, ev) -> In e (d_ents d0) ->
  exists e', In e' (d_ents d) /\ conf e' = conf e /\
    (chosen (d_ents d0) h (map fst l) e -> exists n, first_count l (e_alias e) n /\ Z.of_nat (wanted e') = n) /\
    (~ chosen (d_ents d0) h (map fst l) e -> wanted e' = wanted e /\ forall i, In i (e_inst e) -> i_pid i <> None -> In i (e_inst e')).
Proof. exact scale_request. Qed.
(* and if nothing is going on a batch of those begins at once *)
Theorem C104_begins : forall d0 h o l d ev, reach d0 h -> possible h o (ScaleTo l) -> step o (ScaleTo l) d0 = Some (d, ev) -> (forall b, ~ going_on b h) ->
  exists b r, ev = Begun b :: r /\ forall e, In e (d_ents d0) -> In (e_id e) b <-> chosen (d_ents d0) h (map fst l) e.
Proof. exact scale_request_begins. Qed.
Example ex_request : exists d0 h o d ev e, reach d0 h /\ possible h o (ScaleTo [(21, 1); (23, 0)]) /\ step o (ScaleTo [(21, 1); (23, 0)]) d0 = Some (d, ev) /\ (forall b, ~ going_on b h) /\ In e (d_ents d0) /\ chosen (d_ents d0) h [21; 23] e /\ e_id e = 2 /\ wanted e = 2%nat.
Proof.
  exists (state_at 23), (upto 23), no, (state_at 24), (sent 23), (Ent 2 Server 21 [6] true true [Inst (Some 22) (Some 122) PRun; Inst (Some 21) (Some 121) PRun]). split; [apply ex_reach|]. split; [apply possible_sound; vm_compute; reflexivity|]. split; [vm_compute; reflexivity|].
  split; [intros b G; apply (going_iff _ _ b (ex_reach 23)) in G as (r & G); vm_compute in G; discriminate|]. split; [vm_compute; tauto|]. split; [|split; reflexivity]. refine (proj1 (scalables_chosen _ _ [21; 23] _ (ex_reach 23)) _). vm_compute. tauto.
Qed.
(* one that has asked to be left alone isn't scaled *)
Example ex_left_alone : exists d0 e, reach d0 (upto 23) /\ In e (d_ents d0) /\ e_alias e = 11 /\ ~ chosen (d_ents d0) (upto 23) [11] e.
Proof.
  exists (state_at 23), (Ent 1 Server 11 [2] false true [Inst (Some 10) (Some 110) PRun]). split; [apply ex_reach|]. split; [vm_compute; tauto|]. split; [reflexivity|]. intro C. pose proof (proj2 (scalables_chosen _ _ [11] _ (ex_reach 23)) C) as V. clear C. vm_compute in V. contradiction.
Qed.
(* it isn't so that as many are spawned as are wanted: only the first that are side by side are. Two that ended before it was up, with one between them that runs: the second and the new one
   aren't spawned, and the scale doesn't end *)
Definition w_holes_l := [(Begin 1 base 900 [self1; serv 2 12 [5] true 1; exe 1 11 [2] true 3], [Some 41; Some 42; Some 43; Some 10]); (Own, no); (Own, no); (Exit 41, no); (Exit 43, no); (Connect (Conn 10 110 true None), no); (ScaleTo [(11, 4)], [Some 44; Some 45; Some 46]); (Own, no)].
Definition w_holes := Eval vm_compute in made w_holes_l.
Theorem C104_spawned_refuted : exists d h b e, reach d h /\ ~ down h /\ In Booted (effects h) /\ In (ScaleTo [(11, 4)]) (inputs h) /\ d_self d = [] /\ going_on b h /\ In e (d_ents d) /\ In (e_id e) b /\ e_on e = true /\ e_restart e = true
  /\ (forall id, ~ In (Failed id) (effects h)) /\ map i_pid (e_inst e) = [Some 44; Some 42; None; None] /\ wanted e = 4%nat.
Proof.
  exists (fst w_holes), (snd w_holes), [1], (Ent 1 Exec 11 [2] true true [Inst (Some 44) None PRun; Inst (Some 42) None PRun; Inst None None PRun; Inst None None PRun]). assert (R : reach (fst w_holes) (snd w_holes)) by (apply (exec_reach0 w_holes_l w_holes); vm_compute; reflexivity). split; [exact R|].
  split; [apply not_down; vm_compute; reflexivity|]. split; [vm_compute; tauto|]. split; [vm_compute; tauto|]. split; [reflexivity|]. split; [apply (going_iff _ _ _ R); eexists; reflexivity|]. split; [vm_compute; tauto|]. split; [now left|]. split; [reflexivity|]. split; [reflexivity|].
  split; [intro id; vm_compute; intuition discriminate|]. split; reflexivity.
Qed.

Print Assumptions C97_placed.
Print Assumptions C97_only.
Print Assumptions C97_nonempty.
Print Assumptions C97_sequence.
Print Assumptions C98_dependencies_partial.
Print Assumptions C98_declared_refuted.
Print Assumptions C99_ended.
Print Assumptions C99_spawned.
Print Assumptions C99_failed.
Print Assumptions C99_instance.
Print Assumptions C99_starts.
Print Assumptions C99_goes_on.
Print Assumptions C99_boots_refuted.
Print Assumptions C100_sequence.
Print Assumptions C100_ended.
Print Assumptions C100_gone_partial.
Print Assumptions C100_told.
Print Assumptions C100_asks.
Print Assumptions C100_asks_own.
Print Assumptions C100_only_term.
Print Assumptions C100_only_ask.
Print Assumptions C100_only_prepare.
Print Assumptions C100_prepare_partial.
Print Assumptions C100_closed.
Print Assumptions C100_left_refuted.
Print Assumptions C100_stops_refuted.
Print Assumptions C100_scaled_refuted.
Print Assumptions C101_answered.
Print Assumptions C101_one.
Print Assumptions C101_approved.
Print Assumptions C101_denied_partial.
Print Assumptions C101_denied_refuted.
Print Assumptions C101_denied_scales.
Print Assumptions C101_started_refuted.
Print Assumptions C101_connected.
Print Assumptions C102_once.
Print Assumptions C102_direct.
Print Assumptions C102_waits.
Print Assumptions C102_connect.
Print Assumptions C102_answer_partial.
Print Assumptions C102_gone_partial.
Print Assumptions C102_gone_refuted.
Print Assumptions C102_answered_refuted.
Print Assumptions C103_forgotten.
Print Assumptions C103_instances.
Print Assumptions C103_restarted_partial.
Print Assumptions C103_counts.
Print Assumptions C103_kept_partial.
Print Assumptions C103_killed.
Print Assumptions C104_wanted.
Print Assumptions C104_more.
Print Assumptions C104_less.
Print Assumptions C104_keeps_partial.
Print Assumptions C104_new.
Print Assumptions C104_conf.
Print Assumptions C104_undefined.
Print Assumptions C104_negative_refuted.
Print Assumptions C104_keeps_refuted.
Print Assumptions C104_request.
Print Assumptions C104_begins.
Print Assumptions C104_spawned_refuted.
