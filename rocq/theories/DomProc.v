(* The domain manager: the processes it knows, in histories. *)
From Coq Require Import ZArith List Bool Lia Permutation.
From Verif Require Import DomModel DomSpec DomBoot DomFrame DomMarks DomStep DomSeq DomScale DomTalk DomSing DomLook DomGrew.
Import ListNotations.
Local Open Scope Z_scope.

(* ---- the entities after the first part of a step, before the tasks have a say ---- *)
Definition put_in (e : ent) (l : list ent) : list ent := map (fun x => if e_id x =? e_id e then e else x) l.
Definition ents_of (i : input) (d : dom) : list ent :=
  match i with
  | Begin _ _ _ es => es
  | Exit p => d_ents (fst (remove p d))
  | Connect c => if rank Running <? rank (d_level d) then d_ents d else
      match (match c_sing c with Some id => singleton id d | None => None end) with
      | Some _ => match server_of (c_pid c) d with Some e => put_in (scale_to 1 (ent_drop (c_pid c) e)) (d_ents d)
                  | None => match exec_of (c_pid c) d with Some e => put_in (scale_to 1 (ent_drop (c_pid c) e)) (d_ents d) | None => d_ents d end end
      | None => match server_of (c_pid c) d with Some e => put_in (ent_conn (c_pid c) (c_ipc c) e) (d_ents d) | None => d_ents d end
      end
  | Terminate => d_ents (down_pre d)
  | Fatal => match d_level d with Startup => d_ents (down_pre d) | _ => d_ents d end
  | ScaleTo l => match scale_all l (scalables d (map fst l)) d with Some d1 => d_ents d1 | None => d_ents d end
  | _ => d_ents d
  end.
Record grows (l : list ent) (o : list (option Z)) (d' : dom) (ev : list effect) : Prop := Grows {
  w_ents : Forall2 (egrown ev) l (d_ents d'); w_orc : opids o = spawned ev ++ opids (d_orc d'); w_pids : Permutation (pids d') (flat_map epids l ++ spawned ev) }.
Lemma F2_impl {A B} (P Q : A -> B -> Prop) l m : (forall a b, P a b -> Q a b) -> Forall2 P l m -> Forall2 Q l m.
Proof. intros H F. induction F; constructor; auto. Qed.
Lemma egrown_more x y e e' : (forall id p, In (Spawned id p) x -> In (Spawned id p) y) -> egrown x e e' -> egrown y e e'.
Proof.
  intros H [A B]. split; [auto|]. induction B as [|i j l m K F IH]; constructor; auto. destruct K as [->|(K1 & K2 & [(p & K3 & K4)|K3])]; [left; auto|right; split; [auto|split; [auto|left; exists p; auto]]|right; auto].
Qed.
Lemma grows_of d1 d' x o : grew d1 d' x -> d_orc d1 = o -> spawned (d_out d1) = [] -> grows (d_ents d1) o d' (d_out d').
Proof.
  intros G O S. pose proof (g_out _ _ _ G) as g_out0. pose proof (g_ents _ _ _ G) as g_ents0. pose proof (g_orc _ _ _ G) as g_orc0. pose proof (g_pids _ _ _ G) as g_pids0. assert (E : spawned (d_out d') = spawned x) by (rewrite g_out0, spawned_app, S; auto). constructor.
  - eapply F2_impl; [|exact g_ents0]. intros a b. apply egrown_more. intros id p J. rewrite g_out0. apply in_or_app. auto.
  - now rewrite E, <- O.
  - rewrite E. exact g_pids0.
Qed.
Lemma grows_none l o d' ev : d_ents d' = l -> d_orc d' = o -> spawned ev = [] -> grows l o d' ev.
Proof.
  intros A B C. constructor.
  - rewrite A. apply Forall2_same. intros. apply egrown_refl.
  - now rewrite B, C.
  - rewrite C, app_nil_r. unfold pids. now rewrite A.
Qed.
Lemma grows_say l o d' ev e : match e with Spawned _ _ => False | _ => True end -> grows l o d' ev -> grows l o (say [e] d') (ev ++ [e]).
Proof.
  intros H G. pose proof (w_ents _ _ _ _ G) as w_ents0. pose proof (w_orc _ _ _ _ G) as w_orc0. pose proof (w_pids _ _ _ _ G) as w_pids0. assert (E : spawned (ev ++ [e]) = spawned ev) by (rewrite spawned_app; destruct e; try contradiction; cbn; apply app_nil_r). constructor; rewrite ?E; auto.
  eapply F2_impl; [|exact w_ents0]. intros a b. apply egrown_more. intros. apply in_or_app. auto.
Qed.
Lemma found_spawned x : (forall e, In e x -> exists a b c e', e = Found a b c e') -> spawned x = [].
Proof. induction x as [|e x IH]; intro H; [auto|]. destruct (H e (or_introl eq_refl)) as (a & b & c & f & ->). cbn. apply IH. intros; apply H; cbn; auto. Qed.
Lemma remove_orc p d : d_orc (fst (remove p d)) = d_orc d.
Proof.
  unfold remove. cbv zeta. destruct (server_of p _) as [e|].
  - destruct (e_restart e && _); cbn [fst]; [auto|]. destruct (exec_of p _) as [x|]; [|cbn; auto]. destruct (e_restart x && _); cbn; auto.
  - destruct (exec_of p _) as [x|]; [|cbn; auto]. destruct (e_restart x && _); cbn; auto.
Qed.
Lemma answer_all_orc ls : forall d, d_orc (fst (answer_all ls d)) = d_orc d.
Proof.
  induction ls as [|l r IH]; intro d; cbn [answer_all]; [auto|]. assert (A : d_orc (fst (answer l d)) = d_orc d).
  { unfold answer. destruct (l_id l) as [id|]; [destruct (singleton id d); [auto|destruct (direct l d); auto]|]. destruct (l_proc l); [|auto]. cbv zeta. destruct (_ || _); auto. }
  destruct (answer l d) as [d1 b]. cbn [fst] in A. specialize (IH d1). destruct (answer_all r d1). cbn [fst] in *. congruence.
Qed.
Lemma scale_all_orc l es : forall d d', scale_all l es d = Some d' -> d_orc d' = d_orc d /\ d_out d' = d_out d.
Proof.
  induction es as [|e r IH]; intros d d'; cbn [scale_all]; [intro H; injection H as <-; auto|]. destruct (find _ l) as [x|]; [|apply IH]. destruct (scale (snd x) e) as [e'|]; [|discriminate]. intro H. apply IH in H. exact H.
Qed.
Lemma join_grows c d l : uniq d -> d_out d = [] -> d_ents (join_first c d) = l -> grows l (d_orc d) (join c d) (d_out (join c d)).
Proof.
  intros U O E. destruct (join_pre_pre c d U) as (x0 & P & _). rewrite join_eq. destruct (grew_dispatch (join_pre c d) (pre_uniq _ _ _ P U)) as (x & G). assert (E2 : d_ents (join_pre c d) = l /\ d_orc (join_pre c d) = d_orc d /\ spawned (d_out (join_pre c d)) = []).
  { rewrite join_pre_eq. pose proof (answer_all_books (d_look (join_first c d)) (join_first c d)) as A. pose proof (answer_all_orc (d_look (join_first c d)) (join_first c d)) as B. destruct (answer_all _ _) as [d2 k]. cbn [fst] in *. destruct A as (_ & _ & _ & A & _ & y & C & D).
    cbn [d_ents d_orc d_out set_look]. rewrite A, B, C, E. split; [auto|]. split; [unfold join_first; destruct (server_of _ d); auto|]. destruct (join_first_books c d) as (_ & _ & _ & Z). rewrite Z, O. cbn. now apply found_spawned. }
  destruct E2 as (E2 & E3 & E4). rewrite <- E2. apply (grows_of _ _ x); auto.
Qed.
Lemma join_first_ents c d : d_ents (join_first c d) = match server_of (c_pid c) d with Some e => put_in (ent_conn (c_pid c) (c_ipc c) e) (d_ents d) | None => d_ents d end.
Proof. unfold join_first. destruct (server_of _ d); auto. Qed.
Lemma prepared_sp l : spawned (map (fun h : Z * option Z => match snd h with Some q => Ask q | None => Term (fst h) end) l) = [].
Proof. induction l as [|[p [q|]] l IH]; cbn; auto. Qed.
Lemma shutdown_grows d : uniq d -> d_out d = [] -> grows (d_ents (down_pre d)) (d_orc d) (shutdown d) (d_out (shutdown d)).
Proof.
  intros U O. assert (U1 : uniq (down_pre d)) by (unfold uniq; rewrite (conf_ids _ _ (down_conf d)); exact U). rewrite shutdown_eq.
  match goal with |- context [fold_left andthen ?l ?x] => destruct (grew_thens l x U1) as (y & G) end. match goal with |- context [andthen ?x ?t] => destruct (grew_then x t (grew_uniq _ _ _ G U1)) as (z & G2) end.
  pose proof (grew_trans _ _ _ _ _ G G2) as GG. apply (grows_of _ _ _ _ GG); [reflexivity|]. unfold down_pre. cbn. now rewrite O.
Qed.
Lemma step_grows o i d d' ev : uniq d -> (forall p gs m es, i = Begin p gs m es -> NoDup (map e_id es)) -> step o i d = Some (d', ev) -> grows (ents_of i d) o d' ev.
Proof.
  intros U B H. unfold step in H. set (d0 := set_out [] (set_orc o d)) in *. destruct (handle i d0) as [d1|] eqn:E; [|discriminate]. injection H as <- <-. assert (U0 : uniq d0) by exact U.
  enough (G : grows (ents_of i d) o d1 (d_out d1)) by (destruct G; constructor; auto).
  destruct i; cbn [handle] in E; try (injection E as <-); cbn [ents_of].
  - unfold boot. match goal with |- context [fold_left andthen ?l ?x] => assert (Ux : uniq x) by (exact (B _ _ _ _ eq_refl)); destruct (grew_thens l x Ux) as (y & G) end.
    match goal with |- context [andthen ?x TBoot] => destruct (grew_then x TBoot (grew_uniq _ _ _ G Ux)) as (z & G2) end. pose proof (grew_trans _ _ _ _ _ G G2) as GG. apply (grows_of _ _ _ o GG); reflexivity.
  - unfold exit. pose proof (pre_remove pid d0 U0) as P. pose proof (remove_orc pid d0) as Q. pose proof (remove_books pid d0) as (_ & _ & BO & _). assert (EE : d_ents (fst (remove pid d0)) = d_ents (fst (remove pid d))).
    { unfold remove. cbv zeta. destruct (server_of pid d) as [e|] eqn:SV.
      - change (server_of pid _) with (server_of pid d) at 1. rewrite SV. change (server_of pid _) with (server_of pid d) at 1. rewrite SV. change (d_level d0) with (d_level d). destruct (e_restart e && _); [reflexivity|].
        change (exec_of pid (put (ent_drop pid e) ?x)) with (find (fun e => match e_kind e with Exec => existsb (has_pid pid) (e_inst e) | Server => false end) (put_in (ent_drop pid e) (d_ents d))).
        unfold exec_of. cbn [put d_ents set_ents set_sing set_look set_white d0 set_out set_orc]. destruct (find _ _) as [x|]; [|reflexivity]. destruct (e_restart x && _); reflexivity.
      - change (server_of pid _) with (server_of pid d) at 1. rewrite SV. change (server_of pid _) with (server_of pid d) at 1. rewrite SV. change (d_level d0) with (d_level d).
        unfold exec_of. cbn [put d_ents set_ents set_sing set_look set_white d0 set_out set_orc]. destruct (find _ _) as [x|]; [|reflexivity]. destruct (e_restart x && _); reflexivity. }
    rewrite <- EE. destruct (remove pid d0) as [d2 r]. cbn [fst] in *. pose proof (pre_uniq _ _ _ P U0) as U2. assert (G : exists x, grew d2 (match r with Some id => instances_id d2 id | None => d2 end) x) by (destruct r; [now apply grew_id|exists []; apply grew_refl]).
    destruct G as (x & G). destruct (grew_dispatch _ (grew_uniq _ _ _ G U2)) as (y & G2). apply (grows_of _ _ _ o (grew_trans _ _ _ _ _ G G2)); [now rewrite Q|]. rewrite BO. reflexivity.
  - unfold own. destruct (d_self d0) as [|[a l|l] r]; [now apply grows_none| |apply grows_none; auto; apply prepared_sp]. destruct (grew_dispatch (set_self r d0)) as (y & G); [exact U0|]. apply (grows_of _ _ _ o G); reflexivity.
  - unfold connect. change (d_level d0) with (d_level d). destruct (rank Running <? rank (d_level d)); [apply grows_none; auto|].
    assert (J : forall x, uniq x -> d_out x = [] -> d_ents x = d_ents d -> d_orc x = o -> grows (match server_of (c_pid c) d with Some e => put_in (ent_conn (c_pid c) (c_ipc c) e) (d_ents d) | None => d_ents d end) o (say [Answer (c_pid c) (c_ipc c) true] (join c x)) (d_out (say [Answer (c_pid c) (c_ipc c) true] (join c x)))).
    { intros x X1 X2 X3 X4. apply grows_say; [exact Logic.I|]. rewrite <- X4. apply join_grows; auto. rewrite join_first_ents. unfold server_of. rewrite X3. reflexivity. }
    destruct (c_sing c) as [id|]; [|apply J; try (destruct (c_white c); reflexivity); destruct (c_white c); exact U0]. change (singleton id d0) with (singleton id d). destruct (singleton id d); [|apply J; try (destruct (c_white c); reflexivity); destruct (c_white c); exact U0].
    change (server_of (c_pid c) d0) with (server_of (c_pid c) d). change (exec_of (c_pid c) d0) with (exec_of (c_pid c) d). destruct (server_of (c_pid c) d); [apply grows_none; reflexivity|]. destruct (exec_of (c_pid c) d); apply grows_none; reflexivity.
  - unfold lookup. pose proof (answer_books l d0) as A. assert (Q : d_orc (fst (answer l d0)) = o). { unfold answer. destruct (l_id l) as [id|]; [destruct (singleton id d0); [auto|destruct (direct l d0); auto]|]. destruct (l_proc l); [|auto]. cbv zeta. destruct (_ || _); auto. }
    destruct (answer l d0) as [d2 b]. cbn [fst] in *. destruct A as (_ & _ & _ & A & _ & x & C & D). destruct b; apply grows_none; auto; cbn [d_out set_look]; rewrite C; now apply found_spawned.
  - apply grows_none; auto. apply prepared_sp.
  - apply (shutdown_grows d0); auto.
  - change (d_level d0) with (d_level d). destruct (d_level d) eqn:L; [|apply grows_none; auto..]. apply (shutdown_grows (set_level Error d0)); auto.
  - unfold scale_aliases in E. change (scalables d0 (map fst l)) with (scalables d (map fst l)) in E. pose proof (scale_all_pre l (scalables d (map fst l)) d0) as SP. pose proof (scale_all_orc l (scalables d (map fst l)) d0) as SO.
    assert (SE : forall es x y, d_ents x = d_ents y -> match scale_all l es x, scale_all l es y with Some a, Some b => d_ents a = d_ents b | None, None => True | _, _ => False end).
    { intro es. induction es as [|e r IH]; intros x y Q; cbn [scale_all]; [exact Q|]. destruct (find _ l) as [z|]; [|now apply IH]. destruct (scale (snd z) e); [|exact Logic.I]. apply IH. cbn. now rewrite Q. }
    specialize (SE (scalables d (map fst l)) d0 d eq_refl). destruct (scale_all l (scalables d (map fst l)) d0) as [d2|]; [|discriminate]. destruct (scale_all l (scalables d (map fst l)) d) as [d3|]; [|contradiction]. cbn [option_map] in E. injection E as <-.
    destruct (SO d2 eq_refl) as [SO1 SO2]. assert (U2 : uniq d2) by (apply (pre_uniq d0 _ []); [apply SP; auto; intros e J; exists e; split; [now apply scalables_in in J|auto]|auto]).
    match goal with |- context [andthen (andthen d2 ?t) ?u] => destruct (grew_then d2 t U2) as (x & G1); destruct (grew_then (andthen d2 t) u (grew_uniq _ _ _ G1 U2)) as (y & G2) end.
    rewrite <- SE. apply (grows_of _ _ _ o (grew_trans _ _ _ _ _ G1 G2)); [now rewrite SO1|now rewrite SO2].
  - unfold assassinate. destruct (severe && _); apply grows_none; auto.
Qed.
