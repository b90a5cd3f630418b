(* The domain manager: a process is that of one instance, and is around. *)
From Coq Require Import ZArith List Bool Lia Permutation.
From Verif Require Import DomModel DomSpec DomBoot DomFrame DomMarks DomStep DomSeq DomScale DomTalk DomSing DomLook DomGrew DomProc.
Import ListNotations.
Local Open Scope Z_scope.

Notation occ := (count_occ Z.eq_dec).
Definition wfi (i : inst) : Prop := (i_want i = PErr -> i_pid i = None) /\ (i_pid i = None -> i_ipc i = None).
Definition wfe (e : ent) : Prop := forall i, In i (e_inst e) -> wfi i.
Definition cute (e e' : ent) : Prop := conf e' = conf e /\ (forall p, (occ (epids e') p <= occ (epids e) p)%nat) /\ (wfe e -> wfe e').
Lemma cute_refl e : cute e e. Proof. split; auto. Qed.
Lemma cute_trans a b c : cute a b -> cute b c -> cute a c.
Proof. intros (A & B & C) (D & E & F). split; [congruence|]. split; [intro p; specialize (B p); specialize (E p); lia|auto]. Qed.
Lemma occ_flat_filter (f : inst -> bool) l p : (occ (flat_map pid_of (filter f l)) p <= occ (flat_map pid_of l) p)%nat.
Proof. induction l as [|i l IH]; cbn; [lia|]. rewrite count_occ_app. destruct (f i); cbn; rewrite ?count_occ_app; lia. Qed.
Lemma pids_want w l : flat_map pid_of (map (want w) l) = flat_map pid_of l.
Proof. induction l as [|i l IH]; [auto|]. cbn. now rewrite IH. Qed.
Lemma scale_cute n e : cute e (scale_to n e).
Proof.
  unfold scale_to. destruct (scale n e) as [e'|] eqn:E; [|apply cute_refl]. pose proof (scale_conf' n e e' E) as C. split; [auto|]. split.
  - intro p. unfold scale in E. destruct (_ <? n); [injection E as <-|destruct (n <? 0); [discriminate|injection E as <-]]; unfold epids; cbn [with_inst e_inst].
    + rewrite pids_want, flat_map_app, count_occ_app. assert (Z0 : flat_map pid_of (repeat (Inst None None PRun) (Z.to_nat n - length (e_inst e))) = []) by (induction (Z.to_nat n - length (e_inst e))%nat; auto). rewrite Z0. cbn. lia.
    + set (l1 := filter (is_st (e_kind e) SRunning) (e_inst e) ++ filter (fun i => negb (is_st (e_kind e) SRunning i)) (e_inst e)). assert (P : Permutation (e_inst e) l1) by apply filter_split. rewrite flat_map_app, pids_want, count_occ_app. pose proof (occ_flat_filter (fun i => negb (is_st (e_kind e) SExit i)) (map (want PExit) (skipn (Z.to_nat n) l1)) p) as F. rewrite pids_want in F.
      assert (T : occ (flat_map pid_of (e_inst e)) p = (occ (flat_map pid_of (firstn (Z.to_nat n) l1)) p + occ (flat_map pid_of (skipn (Z.to_nat n) l1)) p)%nat).
      { rewrite <- count_occ_app, <- flat_map_app, firstn_skipn. apply (Permutation_count_occ Z.eq_dec). now apply Permutation_flat_map. } lia.
  - intros W i J. assert (WR : i_want i <> PErr). { intro Q. unfold scale in E. assert (K : (if e_on e then PRun else PDis) <> PErr) by (destruct (e_on e); discriminate).
      destruct (_ <? n); [injection E as <-|destruct (n <? 0); [discriminate|injection E as <-]]; cbn [with_inst e_inst] in J; [apply in_map_iff in J as (x & <- & _); cbn in Q; auto|].
      apply in_app_or in J as [J|J]; [apply in_map_iff in J as (x & <- & _); cbn in Q; auto|]. apply filter_In in J as [J _]. apply in_map_iff in J as (x & <- & _). discriminate. }
    split; [contradiction|]. intro N. assert (X : In (proc i) (map proc (e_inst e)) \/ proc i = (None, None)).
    { apply (in_map proc) in J. destruct (Z.lt_ge_cases (Z.of_nat (length (e_inst e))) n) as [L|L].
      - destruct (scale_more n e e' E L) as [P _]. rewrite P in J. apply in_app_or in J as [J|J]; [auto|]. apply repeat_spec in J. auto.
      - destruct (scale_less n e e' E) as (kept & rest & P & _ & _ & out & Q & O & _); [split; [|lia]|].
        { destruct (Z.lt_ge_cases n 0) as [X|X]; [apply (scale_undefined n e) in X; congruence|auto]. }
        left. rewrite Q, map_app in J. apply (Permutation_map proc) in P. apply (Permutation_in _ (Permutation_sym P)). rewrite map_app. apply in_or_app. apply in_app_or in J as [J|J]; [left; rewrite map_map in J; exact J|right]. apply in_map_iff in J as (x & K & J). apply O in J. rewrite <- K. tauto. }
    destruct X as [X|X]; [|unfold proc in X; congruence]. apply in_map_iff in X as (x & Px & X). apply W in X. destruct X as [_ X]. unfold proc in Px. injection Px as P1 P2. rewrite <- P2. apply X. congruence.
Qed.
Lemma drop_occ r p l q : (occ (flat_map pid_of (drop r p l)) q + (if existsb (has_pid p) l then if (p =? q)%Z then 1 else 0 else 0) = occ (flat_map pid_of l) q)%nat.
Proof.
  induction l as [|i l IH]; [auto|]. cbn [drop existsb]. destruct (has_pid p i) eqn:E.
  - cbn [orb]. unfold has_pid in E. destruct (i_pid i) as [x|] eqn:Pi; [|discriminate]. apply Z.eqb_eq in E. subst x. cbn [flat_map]. rewrite (count_occ_app Z.eq_dec (pid_of i)). assert (PP : pid_of i = [p]) by (unfold pid_of; now rewrite Pi). rewrite PP.
    assert (H1 : occ [p] q = if p =? q then 1%nat else 0%nat). { cbn. destruct (Z.eq_dec p q); [subst; now rewrite Z.eqb_refl|]. apply Z.eqb_neq in n. now rewrite n. } rewrite H1.
    destruct (i_want i); cbn [flat_map pid_of i_pid app]; rewrite ?count_occ_app; cbn [count_occ]; try lia.
  - cbn [orb flat_map]. rewrite !count_occ_app. lia.
Qed.
Lemma drop_cute p e : cute e (ent_drop p e).
Proof.
  split; [reflexivity|]. split.
  - intro q. unfold ent_drop, epids. cbn [with_inst e_inst]. pose proof (drop_occ (e_restart e) p (e_inst e) q). lia.
  - intros W. unfold wfe, ent_drop in *. cbn [with_inst e_inst]. induction (e_inst e) as [|i l IH]; [auto|]. cbn [drop]. destruct (has_pid p i) eqn:E.
    + intros j J. destruct (i_want i); try (destruct J as [<-|J]; [split; [auto|auto]|apply W; cbn; auto]). apply W; cbn; auto.
    + intros j [<-|J]; [apply W; cbn; auto|apply IH; auto]. intros k K. apply W. cbn. auto.
Qed.
Lemma conn_pids p q l : flat_map pid_of (conn_inst p q l) = flat_map pid_of l.
Proof. induction l as [|i l IH]; [auto|]. cbn [conn_inst]. destruct (has_pid p i) eqn:E; cbn [flat_map]; [|now rewrite IH]. unfold has_pid in E. unfold pid_of at 1 3. destruct (i_pid i); [|discriminate]. apply Z.eqb_eq in E. subst. reflexivity. Qed.
Lemma conn_cute p q e : cute e (ent_conn p q e).
Proof.
  split; [reflexivity|]. split.
  - intro r. unfold ent_conn, epids. cbn [with_inst e_inst]. rewrite conn_pids. auto.
  - intros W. unfold wfe, ent_conn in *. cbn [with_inst e_inst]. induction (e_inst e) as [|i l IH]; [auto|]. cbn [conn_inst]. destruct (has_pid p i) eqn:E.
    + intros j [<-|J]; [|apply W; cbn; auto]. assert (Wi := W i (or_introl eq_refl)). destruct Wi as [Wi _]. unfold has_pid in E. split; cbn; [|discriminate]. intro Q. apply Wi in Q. rewrite Q in E. discriminate.
    + intros j [<-|J]; [apply W; cbn; auto|apply IH; auto]. intros k K. apply W. cbn. auto.
Qed.
Lemma put_cute (es : list ent) e e' : NoDup (map e_id es) -> In e es -> cute e e' -> Forall2 cute es (put_in e' es).
Proof. intros N J C. apply (put_forall2 cute es e e'); auto; [|apply cute_refl]. destruct C as [C _]. unfold conf in C. congruence. Qed.
Lemma F2_cute_refl l : Forall2 cute l l. Proof. apply Forall2_same. intros. apply cute_refl. Qed.
Lemma F2_cute_trans a b c : Forall2 cute a b -> Forall2 cute b c -> Forall2 cute a c.
Proof. apply Forall2_trans'. intros x y z. apply cute_trans. Qed.
Lemma F2_conf (P : ent -> ent -> Prop) l m : (forall e e', P e e' -> conf e' = conf e) -> Forall2 P l m -> map conf m = map conf l.
Proof. intros H F. induction F as [|a b l m K F IH]; [auto|]. cbn. now rewrite (H _ _ K), IH. Qed.
Lemma remove_ents p d : d_ents (fst (remove p d)) = 
  let running := match d_level d with Running => true | _ => false end in
  match server_of p d with
  | Some e => let l := put_in (ent_drop p e) (d_ents d) in if e_restart e && running then l else
      match find (fun e => match e_kind e with Exec => existsb (has_pid p) (e_inst e) | Server => false end) l with Some x => put_in (ent_drop p x) l | None => l end
  | None => match exec_of p d with Some x => put_in (ent_drop p x) (d_ents d) | None => d_ents d end
  end.
Proof.
  unfold remove. cbv zeta. set (d1 := set_sing _ _). change (server_of p d1) with (server_of p d). change (exec_of p d1) with (exec_of p d). destruct (server_of p d) as [e|].
  - destruct (e_restart e && _); [reflexivity|]. unfold exec_of. cbn [put d_ents set_ents d1 set_sing set_look set_white]. unfold put_in at 1. destruct (find _ _) as [x|]; [|reflexivity]. destruct (e_restart x && _); reflexivity.
  - destruct (exec_of p d) as [x|]; [|reflexivity]. destruct (e_restart x && _); reflexivity.
Qed.
Lemma cute_ids l m : Forall2 cute l m -> map e_id m = map e_id l.
Proof. intro F. apply conf_ids. apply (F2_conf cute); auto. intros e e' (H & _). auto. Qed.
Lemma scale_all_cute l es : forall d d', uniq d -> scale_all l es d = Some d' -> (forall e, In e es -> exists x, In x (d_ents d) /\ e_id x = e_id e) -> forall base, (forall e, In e es -> In e base) -> NoDup (map e_id base) -> Forall2 cute base (d_ents d) -> Forall2 cute base (d_ents d').
Proof.
  induction es as [|e r IH]; intros d d' U; cbn [scale_all]; [intro H; injection H as <-; auto|]. intros H X base B N F. destruct (find _ l) as [x|].
  - destruct (scale (snd x) e) as [e'|] eqn:E; [|discriminate]. assert (C : cute e e') by (pose proof (scale_cute (snd x) e) as C; unfold scale_to in C; now rewrite E in C).
    assert (Ei : e_id e' = e_id e) by (destruct C as [C _]; unfold conf in C; congruence).
    assert (F' : Forall2 cute base (d_ents (put e' d))).
    { cbn. pose proof (B e (or_introl eq_refl)) as Je. clear - F C N Je Ei. induction F as [|a b l m K F IH]; [constructor|]. cbn [map]. cbn in N. inversion N as [|? ? Y1 Y2]; subst. assert (Eb : e_id b = e_id a) by (destruct K as [K _]; unfold conf in K; congruence).
      constructor.
      - destruct (e_id b =? e_id e') eqn:Q; [|auto]. apply Z.eqb_eq in Q. destruct Je as [->|Je]; [auto|]. exfalso. apply Y1. rewrite <- Eb, Q, Ei. now apply in_map.
      - destruct Je as [->|Je]; [|apply IH; auto]. assert (M : map (fun x => if e_id x =? e_id e' then e' else x) m = m); [|rewrite M; exact F]. rewrite <- (map_id m) at 2. apply map_ext_in. intros y Jy. destruct (e_id y =? e_id e') eqn:Q; [|auto]. apply Z.eqb_eq in Q.
        exfalso. apply Y1. rewrite <- Ei, <- Q. rewrite <- (cute_ids _ _ F). now apply in_map. }
    assert (I : map e_id (d_ents (put e' d)) = map e_id (d_ents d)) by now rewrite (cute_ids _ _ F'), (cute_ids _ _ F).
    apply (IH (put e' d) d'); auto.
    + unfold uniq. rewrite I. exact U.
    + intros a J. destruct (X a (or_intror J)) as (y & Jy & Ey). assert (K : In (e_id a) (map e_id (d_ents (put e' d)))) by (rewrite I, <- Ey; now apply in_map). apply in_map_iff in K as (z & K1 & K2). exists z. auto.
    + intros a J. apply B. cbn. auto.
  - apply (IH d d'); auto; intros a J; [apply X|apply B]; cbn; auto.
Qed.
Lemma ents_cut i d : uniq d -> (forall p gs m es, i <> Begin p gs m es) -> Forall2 cute (d_ents d) (ents_of i d).
Proof.
  intros U NB. pose proof (F2_cute_refl (d_ents d)) as R. assert (DN : forall x, d_ents x = d_ents d -> Forall2 cute (d_ents d) (d_ents (down_pre x))).
  { intros x E. unfold down_pre. cbn [d_ents set_ents cancel set_tasks set_level]. rewrite E. clear. induction (d_ents d) as [|e l IH]; constructor; auto. destruct (_ =? _); [apply cute_refl|apply scale_cute]. }
  destruct i; cbn [ents_of]; auto.
  - exfalso. now apply (NB pid gs mgr es).
  - rewrite remove_ents. cbv zeta. destruct (server_of pid d) as [e|] eqn:E.
    + apply server_of_in in E as (J & _). assert (F : Forall2 cute (d_ents d) (put_in (ent_drop pid e) (d_ents d))) by (apply (put_cute _ e); auto; apply drop_cute). destruct (e_restart e && _); [auto|].
      destruct (find _ _) as [x|] eqn:G; [|auto]. apply find_some in G as [G _]. eapply F2_cute_trans; [exact F|]. apply (put_cute _ x); auto; [rewrite (cute_ids _ _ F); exact U|apply drop_cute].
    + destruct (exec_of pid d) as [x|] eqn:G; [|auto]. apply exec_of_in in G as (J & _). apply (put_cute _ x); auto. apply drop_cute.
  - destruct (rank Running <? rank (d_level d)); [auto|]. destruct (match c_sing c with Some id => singleton id d | None => None end).
    + destruct (server_of (c_pid c) d) as [e|] eqn:E; [apply server_of_in in E as (J & _)|destruct (exec_of (c_pid c) d) as [e|] eqn:E2; [apply exec_of_in in E2 as (J & _)|auto]];
        (apply (put_cute _ e); auto; eapply cute_trans; [apply drop_cute|apply scale_cute]).
    + destruct (server_of (c_pid c) d) as [e|] eqn:E; [|auto]. apply server_of_in in E as (J & _). apply (put_cute _ e); auto. apply conn_cute.
  - destruct (d_level d); auto.
  - destruct (scale_all l (scalables d (map fst l)) d) as [d1|] eqn:E; [|auto]. apply (scale_all_cute l _ d d1 U E); auto; intros e J; apply scalables_in in J; eauto.
Qed.
(* nothing is left of what has ended *)
Lemma occ_flat_F2 l m p : Forall2 cute l m -> (occ (flat_map epids m) p <= occ (flat_map epids l) p)%nat.
Proof. intro F. induction F as [|a b l m (_ & K & _) F IH]; cbn; [lia|]. rewrite !count_occ_app. specialize (K p). lia. Qed.
Lemma occ_put es e e' p k : NoDup (map e_id es) -> In e es -> e_id e' = e_id e -> (occ (epids e') p + k = occ (epids e) p)%nat -> (occ (flat_map epids (put_in e' es)) p + k = occ (flat_map epids es) p)%nat.
Proof.
  intros N J E H. unfold put_in. induction es as [|x l IH]; [contradiction|]. cbn [map flat_map]. inversion N as [|? ? X Y]; subst. rewrite !count_occ_app. destruct J as [->|J].
  - rewrite E, Z.eqb_refl. assert (K : map (fun x => if e_id x =? e_id e then e' else x) l = l); [|rewrite K; lia].
    rewrite <- (map_id l) at 2. apply map_ext_in. intros z J. destruct (e_id z =? e_id e) eqn:Q; [|auto]. apply Z.eqb_eq in Q. exfalso. apply X. rewrite <- Q. now apply in_map.
  - assert (Q : e_id x =? e_id e' = false). { apply Z.eqb_neq. intro Q. apply X. rewrite Q, E. now apply in_map. } rewrite Q. specialize (IH Y J). lia.
Qed.
Lemma drop_gone p e : existsb (has_pid p) (e_inst e) = true -> (occ (epids (ent_drop p e)) p + 1 = occ (epids e) p)%nat.
Proof. intro H. pose proof (drop_occ (e_restart e) p (e_inst e) p) as D. rewrite H, Z.eqb_refl in D. exact D. Qed.
Lemma no_owner (f : ent -> bool) l p : (forall e, f e = existsb (has_pid p) (e_inst e)) -> find f l = None -> ~ In p (flat_map epids l).
Proof.
  intros F N J. apply in_flat_map in J as (e & J & K). apply (find_none _ _ N) in J. rewrite F in J. unfold epids in K. apply in_flat_map in K as (i & Ji & K). assert (X : existsb (has_pid p) (e_inst e) = true); [|congruence].
  apply existsb_exists. exists i. split; [auto|]. unfold pid_of in K. unfold has_pid. destruct (i_pid i); [|contradiction]. destruct K as [->|[]]. apply Z.eqb_refl.
Qed.
Lemma pid_exists p e : In p (epids e) -> existsb (has_pid p) (e_inst e) = true.
Proof. intro K. unfold epids in K. apply in_flat_map in K as (i & Ji & K). apply existsb_exists. exists i. split; [auto|]. unfold pid_of in K. unfold has_pid. destruct (i_pid i); [|contradiction]. destruct K as [->|[]]. apply Z.eqb_refl. Qed.
Lemma exists_pid p e : existsb (has_pid p) (e_inst e) = true -> In p (epids e).
Proof. intro K. apply existsb_exists in K as (i & J & K). unfold epids. apply in_flat_map. exists i. split; [auto|]. unfold has_pid in K. unfold pid_of. destruct (i_pid i); [|discriminate]. apply Z.eqb_eq in K. subst. cbn. auto. Qed.
Lemma exit_none p d : uniq d -> NoDup (pids d) -> ~ In p (flat_map epids (ents_of (Exit p) d)).
Proof.
  intros U N. pose proof (proj1 (NoDup_count_occ Z.eq_dec (pids d)) N p) as O. cbn [ents_of]. rewrite remove_ents. cbv zeta. destruct (server_of p d) as [e|] eqn:E.
  - apply server_of_in in E as (J & _ & X). pose proof (occ_put (d_ents d) e (ent_drop p e) p 1 U J eq_refl (drop_gone p e X)) as Q. unfold pids in O. assert (Z0 : occ (flat_map epids (put_in (ent_drop p e) (d_ents d))) p = 0%nat) by lia.
    assert (NI : ~ In p (flat_map epids (put_in (ent_drop p e) (d_ents d)))) by now apply (count_occ_not_In Z.eq_dec). destruct (e_restart e && _); [auto|]. destruct (find _ _) as [x|] eqn:F; [|auto].
    exfalso. apply find_some in F as [F G]. destruct (e_kind x); [discriminate|]. apply NI. apply in_flat_map. exists x. split; [auto|]. now apply exists_pid.
  - assert (NS : forall x, In x (d_ents d) -> e_kind x = Server -> ~ In p (epids x)). { intros x J K I. apply (find_none _ _ E) in J. rewrite K in J. apply pid_exists in I. congruence. }
    destruct (exec_of p d) as [x|] eqn:F.
    + apply exec_of_in in F as (J & _ & X). pose proof (occ_put (d_ents d) x (ent_drop p x) p 1 U J eq_refl (drop_gone p x X)) as Q. unfold pids in O. apply (count_occ_not_In Z.eq_dec). lia.
    + intro I. apply in_flat_map in I as (x & J & I). destruct (e_kind x) eqn:K; [now apply (NS x J K)|]. apply (find_none _ _ F) in J. rewrite K in J. apply pid_exists in I. congruence.
Qed.
