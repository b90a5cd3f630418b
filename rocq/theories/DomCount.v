(* The domain manager: how many are wanted after a process has ended. *)
From Coq Require Import ZArith List Bool Lia Permutation.
From Verif Require Import DomModel DomSpec DomBoot DomFrame DomMarks DomStep DomSeq DomTalk DomSing DomScale DomLook DomGrew DomProc DomPids DomKeep DomAsk.
Import ListNotations.
Local Open Scope Z_scope.

Lemma in_put (e' : ent) l x : In x l -> e_id x <> e_id e' -> In x (put_in e' l).
Proof. intros J N. unfold put_in. apply in_map_iff. exists x. split; [|auto]. destruct (e_id x =? e_id e') eqn:E; [apply Z.eqb_eq in E; contradiction|auto]. Qed.
Lemma in_put_it (e e' : ent) l : In e l -> e_id e = e_id e' -> In e' (put_in e' l).
Proof. intros J N. unfold put_in. apply in_map_iff. exists e. split; [|auto]. now rewrite N, Z.eqb_refl. Qed.
Lemma server_iff p d e : uniq d -> NoDup (pids d) -> In e (d_ents d) -> In p (epids e) -> server_of p d = match e_kind e with Server => Some e | Exec => None end.
Proof.
  intros U N J I. destruct (server_of p d) as [f|] eqn:F.
  - apply server_of_in in F as (Jf & Kf & Xf). assert (Q : f = e) by (apply (owner_one (d_ents d) f e p); auto; now apply exists_pid). subst f. now rewrite Kf.
  - destruct (e_kind e) eqn:K; [|auto]. apply (find_none _ _ F) in J. rewrite K in J. apply pid_exists in I. congruence.
Qed.
Lemma exec_iff p d e : uniq d -> NoDup (pids d) -> In e (d_ents d) -> In p (epids e) -> exec_of p d = match e_kind e with Exec => Some e | Server => None end.
Proof.
  intros U N J I. destruct (exec_of p d) as [f|] eqn:F.
  - apply exec_of_in in F as (Jf & Kf & Xf). assert (Q : f = e) by (apply (owner_one (d_ents d) f e p); auto; now apply exists_pid). subst f. now rewrite Kf.
  - destruct (e_kind e) eqn:K; [auto|]. apply (find_none _ _ F) in J. rewrite K in J. apply pid_exists in I. congruence.
Qed.
Lemma exit_ents p d e : uniq d -> NoDup (pids d) -> In e (d_ents d) -> In (if existsb (has_pid p) (e_inst e) then ent_drop p e else e) (ents_of (Exit p) d).
Proof.
  intros U N J. pose proof (exit_none p d U N) as X. cbn [ents_of] in *. rewrite remove_ents in *. cbv zeta in *. destruct (server_of p d) as [f|] eqn:F.
  - pose proof F as F0. apply server_of_in in F as (Jf & Kf & Xf). set (l := put_in (ent_drop p f) (d_ents d)) in *.
    assert (Y : In (if existsb (has_pid p) (e_inst e) then ent_drop p e else e) l).
    { destruct (existsb (has_pid p) (e_inst e)) eqn:Q.
      - rewrite (owner_one (d_ents d) e f p N J Jf (exists_pid _ _ Q) (exists_pid _ _ Xf)). now apply (in_put_it f).
      - apply in_put; [auto|]. cbn. intro E. rewrite (uniq_id (d_ents d) e f U J Jf E) in Q. congruence. }
    assert (NF : find (fun e => match e_kind e with Exec => existsb (has_pid p) (e_inst e) | Server => false end) l = None).
    { destruct (find _ l) as [x|] eqn:G; [|auto]. exfalso. apply find_some in G as [G1 G2]. destruct (e_kind x); [discriminate|].
      pose proof (occ_put (d_ents d) f (ent_drop p f) p 1 U Jf eq_refl (drop_gone p f Xf)) as Q. pose proof (proj1 (NoDup_count_occ Z.eq_dec (pids d)) N p) as O. unfold pids in O.
      assert (Z0 : occ (flat_map epids l) p = 0%nat) by (unfold l; lia). apply (count_occ_not_In Z.eq_dec) in Z0. apply Z0. apply (in_pids x); auto. now apply exists_pid. }
    rewrite NF. destruct (e_restart f && _); auto.
  - destruct (exec_of p d) as [f|] eqn:G.
    + apply exec_of_in in G as (Jf & Kf & Xf). destruct (existsb (has_pid p) (e_inst e)) eqn:Q.
      * rewrite (owner_one (d_ents d) e f p N J Jf (exists_pid _ _ Q) (exists_pid _ _ Xf)). now apply (in_put_it f).
      * apply in_put; [auto|]. cbn. intro E. rewrite (uniq_id (d_ents d) e f U J Jf E) in Q. congruence.
    + destruct (existsb (has_pid p) (e_inst e)) eqn:Q; [|auto]. exfalso. apply X. apply (in_pids e); [auto|]. now apply exists_pid.
Qed.
Definition wanting (i : inst) : bool := match i_want i with PExit => false | _ => true end.
Lemma drop_counts r p l : match find (has_pid p) l with
  | Some i => (length (filter wanting (drop r p l)) + match i_want i with PRun => if r then 0 else 1 | _ => 0 end = length (filter wanting l))%nat
  | None => drop r p l = l end.
Proof.
  induction l as [|i l IH]; [reflexivity|]. cbn [find drop]. destruct (has_pid p i) eqn:E.
  - destruct i as [a b w]. unfold wanting. destruct w, r; cbn; lia.
  - destruct (find (has_pid p) l) as [j|]; [|now rewrite IH]. cbn [filter]. destruct (wanting i); cbn [length]; lia.
Qed.
Lemma find_pid l i p : (occ (flat_map pid_of l) p <= 1)%nat -> In i l -> i_pid i = Some p -> find (has_pid p) l = Some i.
Proof.
  intros O J P. destruct (find (has_pid p) l) as [j|] eqn:F.
  - apply find_some in F as [Jj Pj]. unfold has_pid in Pj. destruct (i_pid j) as [q|] eqn:Q; [|discriminate]. apply Z.eqb_eq in Pj. subst q. f_equal. apply (occ_one l p j i); auto.
  - apply (find_none _ _ F) in J. unfold has_pid in J. rewrite P, Z.eqb_refl in J. discriminate.
Qed.
(* one that's wanted to run and isn't to be restarted isn't wanted any more; otherwise as many are wanted as before; of the others too *)
Theorem exit_counts d0 h o p d ev e : reach d0 h -> possible h o (Exit p) -> step o (Exit p) d0 = Some (d, ev) -> In e (d_ents d0) ->
  exists e', In e' (d_ents d) /\ conf e' = conf e /\
    ((exists q, In (Inst (Some p) q PRun) (e_inst e)) -> e_restart e = false -> S (wanted e') = wanted e) /\
    (~ (exists q, In (Inst (Some p) q PRun) (e_inst e)) \/ e_restart e = true -> wanted e' = wanted e).
Proof.
  intros R _ St J. pose proof (k_rest _ _ (reach_kept _ _ R)) as (U & _ & _). destruct (reach_procs d0 h R) as (N & _). pose proof (step_grows o (Exit p) d0 d ev U ltac:(discriminate) St) as G.
  pose proof (exit_ents p d0 e U N J) as X. destruct (F2_left _ _ _ _ (w_ents _ _ _ _ G) X) as (e' & K & W). exists e'. split; [auto|].
  split; [rewrite (proj1 W); destruct (existsb _ _); reflexivity|]. rewrite (egrown_wanted _ _ _ W). pose proof (occ_ents (d_ents d0) e p N J) as O.
  assert (WD : forall x, wanted x = length (filter wanting (e_inst x))) by reflexivity. pose proof (drop_counts (e_restart e) p (e_inst e)) as D.
  destruct (existsb (has_pid p) (e_inst e)) eqn:Q.
  - rewrite !WD. cbn [ent_drop with_inst e_inst]. destruct (find (has_pid p) (e_inst e)) as [i|] eqn:F.
    + apply find_some in F as [Ji Pi]. unfold has_pid in Pi. destruct (i_pid i) as [q|] eqn:Pq; [|discriminate]. apply Z.eqb_eq in Pi. subst q. split.
      * intros (q & I) RS. rewrite (occ_one (e_inst e) p i _ O Ji I Pq eq_refl) in D. cbn in D. rewrite RS in *. lia.
      * intros [NI|RS]; [|rewrite RS in *; destruct (i_want i); lia]. destruct i as [a b w]. cbn in Pq. subst a. cbn in D. destruct w; try lia. exfalso. apply NI. eauto.
    + apply existsb_exists in Q as (i & Ji & Pi). apply (find_none _ _ F) in Ji. congruence.
  - split; [|auto]. intros (q & I) _. exfalso. assert (Y : existsb (has_pid p) (e_inst e) = true); [|congruence]. apply existsb_exists. eexists. split; [exact I|]. cbn. apply Z.eqb_refl.
Qed.

(* a process that's spawned is that of an instance of what it's spawned for *)
Lemma spawned_once ev id id' p : NoDup (spawned ev) -> In (Spawned id p) ev -> In (Spawned id' p) ev -> id = id'.
Proof.
  induction ev as [|f ev IH]; [contradiction|]. cbn [spawned flat_map]. intros N A B. assert (N' : NoDup (spawned ev)) by (destruct f; cbn in N; auto; inversion N; auto).
  destruct A as [A|A], B as [B|B]; [congruence| | |auto]; subst f; cbn in N; inversion N as [|? ? X _]; subst; exfalso; apply X; apply spawned_in; eauto.
Qed.
Theorem spawned_instance d h i ev id p : reach d (h ++ [(i, ev)]) -> In (Spawned id p) ev -> exists e x, In e (d_ents d) /\ e_id e = id /\ In x (e_inst e) /\ i_pid x = Some p.
Proof.
  intros R J. apply reach_last in R as (d0 & o & R0 & P & St). pose proof (k_rest _ _ (reach_kept _ _ R0)) as (U & _ & _). destruct (reach_procs d0 h R0) as (N & W & K).
  assert (BN : forall p gs m es, i = Begin p gs m es -> NoDup (map e_id es)) by (intros q gs m es ->; destruct P as [(_ & _ & X & _) _]; auto).
  pose proof (step_grows o i d0 d ev U BN St) as G. assert (I : In p (pids d)). { apply (Permutation_in _ (Permutation_sym (w_pids _ _ _ _ G))). apply in_or_app. right. apply spawned_in. eauto. }
  pose proof P as (_ & P2 & P3). assert (SN : NoDup (spawned ev)) by (apply (nodup_app_l _ (opids (d_orc d))); rewrite <- (w_orc _ _ _ _ G); exact P2).
  assert (F : ~ around p (h ++ [(i, [])])). { apply P3. apply (spawned_opids ev); [rewrite (w_orc _ _ _ _ G); intros x X; apply in_or_app; auto|]. apply spawned_in. eauto. }
  unfold pids in I. apply in_flat_map in I as (e & Je & I). exists e. assert (X : exists x, In x (e_inst e) /\ i_pid x = Some p) by (unfold epids in I; apply in_flat_map in I as (x & Jx & I); exists x; split; [auto|]; unfold pid_of in I; destruct (i_pid x); [destruct I as [->|[]]; auto|contradiction]).
  destruct X as (x & X1 & X2). exists x. split; [auto|]. split; [|auto]. destruct (F2_in _ _ _ _ (w_ents _ _ _ _ G) Je) as (e0 & J0 & E). assert (EI : e_id e = e_id e0) by (destruct E as [E _]; unfold conf in E; congruence).
  destruct (egrown_pids _ _ _ p E I) as [Q|Q]; [|rewrite EI; now apply (spawned_once ev _ _ p SN)]. exfalso. apply F.
  assert (C : (exists q gs m es, i = Begin q gs m es) \/ forall q gs m es, i <> Begin q gs m es) by (destruct i; [left; eauto|right; discriminate..]). destruct C as [(q & gs & m & es & ->)|NB].
  - cbn [ents_of] in J0. destruct P as ((-> & C1 & C2 & C3 & C4 & C5) & _). destruct (self_pids q m es C2 C4) as (A1 & _). destruct (A1 e0 p J0 Q) as [-> _]. apply around_begin.
  - destruct (F2_in _ _ _ _ (ents_cut i d0 U NB) J0) as (e1 & J1 & (C1 & C2 & _)). assert (Q1 : In p (epids e1)) by (apply (count_occ_In Z.eq_dec); apply (count_occ_In Z.eq_dec) in Q; specialize (C2 p); lia).
    apply around_still; [destruct (K e1 p J1 Q1) as [A|(gs & es & A)]; [now apply (child_around (e_id e1))|now apply (begin_around d0 h p gs (e_id e1) es)]|]. intros ->. apply (exit_none p d0 U N). now apply (in_pids e0).
Qed.
