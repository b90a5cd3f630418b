(* To make histories of the outbound that can be, for the witnesses. *)
From Coq Require Import ZArith List Bool Lia.
From Verif Require Import GwoModel GwoSpec.
Import ListNotations.
Local Open Scope Z_scope.

Definition possible_b (i : input) (s : state) (h : history) : bool :=
  match i with
  | Connected f c _ => forallb (fun n => negb (c_sock n =? f)) (s_conns s) && forallb (fun x => match fst x with Connected _ c' _ => negb (c' =? c) | _ => true end) h
  | Inward c _ _ | Outward c _ _ | Broken c | Remove c => existsb (Z.eqb c) (map c_ipc (s_conns s))
  | _ => true
  end.
Fixpoint exec (l : list input) (s : state) (h : history) : option (state * history) :=
  match l with
  | [] => Some (s, h)
  | i :: r => if possible_b i s h then match step i s with Done s' ev => exec r s' (h ++ [(i, ev)]) | _ => None end else None
  end.
Lemma possible_sound i s h : possible_b i s h = true -> possible i s h.
Proof.
  destruct i as [f c old|c ok m|c ok m|c|g|c| |]; cbn; auto; try (intro H; apply existsb_exists in H as [x [I E]]; apply Z.eqb_eq in E; now subst).
  intro H. apply andb_true_iff in H as [A B]. rewrite forallb_forall in A, B. split.
  - intros n I E. specialize (A n I). rewrite E, Z.eqb_refl in A. discriminate.
  - intros f' o ev I. specialize (B _ I). cbn in B. rewrite Z.eqb_refl in B. discriminate.
Qed.
Lemma exec_reach l s h s' h' : exec l s h = Some (s', h') -> reach s h -> reach s' h'.
Proof.
  revert s h. induction l as [|i l IH]; intros s h; cbn.
  - intro H; injection H as <- <-; auto.
  - destruct (possible_b i s h) eqn:P; [|discriminate]. destruct (step i s) as [s1 ev| |] eqn:E; try discriminate. intros H R. apply (IH _ _ H). apply (reach_step s h i s1 ev R); auto. now apply possible_sound.
Qed.
(* the history of the inputs, if it can be *)
Definition made (l : list input) : state * history := match exec l state0 [] with Some x => x | None => (state0, []) end.
Lemma made_reach l x : exec l state0 [] = Some x -> reach (fst (made l)) (snd (made l)).
Proof. intro H. unfold made. rewrite H. destruct x as [s h]. apply (exec_reach _ _ _ _ _ H reach_start). Qed.
Lemma happens_last l x h i ev : exec l state0 [] = Some x -> snd (made l) = h ++ [(i, ev)] -> happens (h ++ [(i, ev)]).
Proof. intros H E. exists (fst (made l)). rewrite <- E. now apply (made_reach l x). Qed.
Lemma exec_reach0 l x : exec l state0 [] = Some x -> reach (fst x) (snd x).
Proof. destruct x as [s h]. intro H. apply (exec_reach _ _ _ _ _ H reach_start). Qed.
Lemma exec_happens l x h i ev : exec l state0 [] = Some x -> snd x = h ++ [(i, ev)] -> happens (h ++ [(i, ev)]).
Proof. intros H E. exists (fst x). rewrite <- E. now apply (exec_reach0 l x). Qed.
