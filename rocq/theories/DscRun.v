(* To make histories of the discovery, for the witnesses, and to decide what the specification says of them. *)
From Coq Require Import ZArith List Bool Lia.
From Verif Require Import DscModel DscSpec DscProofs DscHold DscEnv DscDyn.
Import ListNotations.
Local Open Scope Z_scope.

Definition all_in (h : history) (p : input -> bool) : bool := forallb p (inputs h).
Lemma all_in_sound h p i : all_in h p = true -> In i (inputs h) -> p i = true.
Proof. unfold all_in. rewrite forallb_forall. auto. Qed.
Definition fresh_req (r : req) (h : history) : bool := all_in h (fun j => match j with Api r' | Request r' => negb (r_corr r' =? r_corr r) | _ => true end).
Lemma fresh_req_sound r h : fresh_req r h = true -> forall r', In (Api r') (inputs h) \/ In (Request r') (inputs h) -> r_corr r' <> r_corr r.
Proof. intros H r' [J|J] E; apply (all_in_sound _ _ _ H) in J; cbn in J; rewrite E, Z.eqb_refl in J; discriminate. Qed.
Definition possible_b (h : history) (i : input) : bool :=
  match i with
  | Begin _ _ => match h with [] => true | _ => false end
  | _ =>
    match h with [] => false | _ => true end &&
    match i with
    | Api r => r_api r && fresh_req r h
    | Request r => negb (r_api r) && fresh_req r h
    | Rediscover _ k => all_in h (fun j => match j with Rediscover _ k' => negb (k' =? k) | _ => true end)
    | DiscReply k _ => existsb (fun e => match e with Ask _ k' _ => k' =? k | _ => false end) (effects h) && all_in h (fun j => match j with DiscReply k' _ => negb (k' =? k) | _ => true end)
    | LookReply k _ => existsb (fun e => match e with AskLook _ k' _ _ => k' =? k | _ => false end) (effects h) && all_in h (fun j => match j with LookReply k' _ => negb (k' =? k) | _ => true end)
    | KnownReply k _ => existsb (fun e => match e with AskKnown _ k' => k' =? k | _ => false end) (effects h) && all_in h (fun j => match j with KnownReply k' _ => negb (k' =? k) | _ => true end)
    | _ => true
    end
  end.
Lemma possible_sound h i : possible_b h i = true -> possible h i.
Proof.
  unfold possible_b, possible. destruct i; intro H; try (apply andb_prop in H as [H0 H]; split; [destruct h; [discriminate|discriminate]|]); try exact Logic.I.
  - destruct h; [auto|discriminate].
  - apply andb_prop in H as [A B]. split; [auto|]. now apply fresh_req_sound.
  - apply andb_prop in H as [A B]. split; [now apply negb_true_iff|]. now apply fresh_req_sound.
  - intros p' J. apply (all_in_sound _ _ _ H) in J. cbn in J. rewrite Z.eqb_refl in J. discriminate.
  - apply andb_prop in H as [A B]. split; [apply existsb_exists in A as (e & J & A); destruct e; try discriminate; apply Z.eqb_eq in A; subst; eauto|]. intros c' J. apply (all_in_sound _ _ _ B) in J. cbn in J. rewrite Z.eqb_refl in J. discriminate.
  - apply andb_prop in H as [A B]. split; [apply existsb_exists in A as (e & J & A); destruct e; try discriminate; apply Z.eqb_eq in A; subst; eauto|]. intros c' J. apply (all_in_sound _ _ _ B) in J. cbn in J. rewrite Z.eqb_refl in J. discriminate.
  - apply andb_prop in H as [A B]. split; [apply existsb_exists in A as (e & J & A); destruct e; try discriminate; apply Z.eqb_eq in A; subst; eauto|]. intros c' J. apply (all_in_sound _ _ _ B) in J. cbn in J. rewrite Z.eqb_refl in J. discriminate.
Qed.
Fixpoint exec (l : list input) (s : state) (h : history) : option (state * history) :=
  match l with
  | [] => Some (s, h)
  | i :: r => if possible_b h i then let x := step i s in exec r (fst x) (h ++ [(i, snd x)]) else None
  end.
Lemma exec_reach l : forall s h s' h', exec l s h = Some (s', h') -> reach s h -> reach s' h'.
Proof.
  induction l as [|i l IH]; intros s h s' h'; cbn [exec].
  - intro H; injection H as <- <-; auto.
  - destruct (possible_b h i) eqn:P; [|discriminate]. cbv zeta. intros H R. apply (IH _ _ _ _ H). apply reach_step; auto. now apply possible_sound.
Qed.
Definition made (l : list input) : state * history := match exec l state0 [] with Some x => x | None => (state0, []) end.
Lemma exec_reach0 l x : exec l state0 [] = Some x -> reach (fst x) (snd x).
Proof. destruct x as [s h]. intro H. apply (exec_reach _ _ _ _ _ H reach_start). Qed.
Lemma exec_prefix l : forall n s h s' h', exec l s h = Some (s', h') -> exists t s2, h' = h ++ t /\ exec (firstn n l) s h = Some (s2, h ++ firstn n t).
Proof.
  induction l as [|i l IH]; intros n s h s' h'; cbn [exec].
  - intro H; injection H as <- <-. exists [], s. rewrite !firstn_nil, !app_nil_r. auto.
  - destruct (possible_b h i) eqn:P; [|discriminate]. cbv zeta. intros H. destruct n as [|n].
    + destruct (IH O _ _ _ _ H) as (t & s2 & -> & _). exists ((i, snd (step i s)) :: t), s. cbn [firstn exec]. rewrite app_nil_r, <- app_assoc. auto.
    + destruct (IH n _ _ _ _ H) as (t & s2 & -> & E). exists ((i, snd (step i s)) :: t), s2. cbn [firstn exec]. rewrite P. cbv zeta. rewrite E, <- !app_assoc. auto.
Qed.
Lemma exec_reach_upto l x n : exec l state0 [] = Some x -> reach (fst (made (firstn n l))) (firstn n (snd x)).
Proof.
  destruct x as [s h]. intro H. destruct (exec_prefix l n _ _ _ _ H) as (t & s2 & -> & E). cbn [app snd] in *. unfold made. rewrite E. apply (exec_reach0 _ _ E).
Qed.

(* ---- what is outstanding ---- *)
Definition asks (e : effect) : bool := match asked_of e with Some _ => true | None => false end.
Fixpoint opens (r : history) : list effect := match r with [] => [] | (i, ev) :: r' => filter asks ev ++ filter (fun e => negb (ends i e)) (opens r') end.
Lemma opens_in e h : open e h -> In e (opens (rev h)).
Proof.
  induction 1 as [h i ev A B|h i ev O IH E]; rewrite rev_app_distr; cbn [rev app opens]; apply in_or_app; [left|right]; apply filter_In; (split; [auto|]).
  - unfold asks. destruct (asked_of e); [auto|contradiction].
  - now rewrite E.
Qed.
Lemma quiet_sound h : opens (rev h) = [] -> quiet h.
Proof. intros E e O. apply opens_in in O. now rewrite E in O. Qed.
Fixpoint armed_rev (r : history) : bool := match r with [] => false | (i, ev) :: r' => existsb (fun e => match e with Timer => true | _ => false end) ev || (armed_rev r' && match i with Timeout => false | _ => true end) end.
Lemma armed_in h : armed h -> armed_rev (rev h) = true.
Proof.
  induction 1 as [h i ev A|h i ev O IH E]; rewrite rev_app_distr; cbn [rev app armed_rev]; apply orb_true_iff; [left|right].
  - apply existsb_exists. exists Timer. auto.
  - rewrite IH. destruct i; auto.
Qed.
Lemma not_armed h : armed_rev (rev h) = false -> ~ armed h.
Proof. intros E A. apply armed_in in A. congruence. Qed.
Lemma not_lost p h : all_in h (fun j => match j with Lost q => negb (q =? p) | _ => true end) = true -> ~ lost p h.
Proof. intros H J. apply (all_in_sound _ _ _ H) in J. cbn in J. rewrite Z.eqb_refl in J. discriminate. Qed.
Lemma not_down h : all_in h (fun j => match j with Shutdown => false | _ => true end) = true -> ~ down h.
Proof. intros H J. apply (all_in_sound _ _ _ H) in J. discriminate. Qed.
