(* The domain manager: who is approved, and the singletons, in histories. *)
From Coq Require Import ZArith List Bool Lia.
From Verif Require Import DomModel DomSpec DomBoot DomFrame DomMarks DomStep DomSeq DomTalk.
Import ListNotations.
Local Open Scope Z_scope.

Lemma filter_one {A} (p : A -> bool) l y x : filter p l = [y] -> In x l -> p x = true -> x = y.
Proof. intros F J P. assert (K : In x (filter p l)) by (apply filter_In; auto). rewrite F in K. destruct K as [->|[]]. auto. Qed.
(* one answer for each connect, and no other *)
Theorem connect_answered d h i ev : reach d (h ++ [(i, ev)]) ->
  match i with
  | Connect c => exists a ok b, ev = a ++ Answer (c_pid c) (c_ipc c) ok :: b /\ forall p q o, ~ In (Answer p q o) (a ++ b)
  | _ => forall p q o, ~ In (Answer p q o) ev
  end.
Proof.
  intro R. apply reach_last in R as (d0 & o & R0 & P & S). apply step_sing in S as [_ A].
  assert (N : filter ansb ev = [] -> forall p q o, ~ In (Answer p q o) ev) by (intros F p q ok J; assert (K : In (Answer p q ok) (filter ansb ev)) by (apply filter_In; auto); rewrite F in K; contradiction).
  destruct i; cbn [ans_after] in A; auto. set (ok := if _ : bool then _ else _) in A. assert (J : In (Answer (c_pid c) (c_ipc c) ok) ev). { apply (proj1 (filter_In ansb _ ev)). rewrite A. cbn. auto. }
  apply in_split in J as (a & b & ->). exists a, ok, b. split; [auto|]. rewrite filter_app in A. cbn in A. intros p q o' J.
  assert (L : (length (filter ansb a) + length (filter ansb b) = 0)%nat) by (apply (f_equal (@length _)) in A; rewrite app_length in A; cbn in A; lia).
  apply in_app_or in J as [J|J]; [assert (K : In (Answer p q o') (filter ansb a)) by (apply filter_In; auto); destruct (filter ansb a); [contradiction|cbn in L; lia]|].
  assert (K : In (Answer p q o') (filter ansb b)) by (apply filter_In; auto); destruct (filter ansb b); [contradiction|cbn in L; lia].
Qed.
Lemma holds_inv s p q h i ev : holds s p q (h ++ [(i, ev)]) -> (exists c, i = Connect c /\ c_pid c = p /\ c_ipc c = q /\ c_sing c = Some s /\ In (Answer p q true) ev) \/ (holds s p q h /\ i <> Exit p).
Proof.
  intro H. remember (h ++ [(i, ev)]) as x eqn:E. destruct H as [h' c ev' A B C D|h' i' ev' H N]; apply app_inj_tail in E as [-> E]; injection E as <- <-; [left; exists c; auto 10|right; auto].
Qed.
Lemma holds_nil s p q : ~ holds s p q [].
Proof. intro H. remember [] as x eqn:E. destruct H as [h|h]; destruct h; discriminate. Qed.
Lemma low_level d h : reach d h -> (rank Running <? rank (d_level d)) = false <-> ~ down h.
Proof.
  intro R. pose proof (k_level _ _ (reach_kept _ _ R)) as K. destruct (d_level d); cbn; split; intro H; try discriminate; tauto.
Qed.
Lemma sing_find id (l : list (Z * (Z * Z))) : NoDup (map fst l) -> forall h, option_map snd (find (fun x => fst x =? id) l) = Some h <-> In (id, h) l.
Proof.
  intros N h. destruct (find (fun x => fst x =? id) l) as [[i g]|] eqn:F; cbn.
  - pose proof F as F'. apply find_some in F' as [J E]. cbn in E. apply Z.eqb_eq in E. subst i. split; [intro K; injection K as <-; auto|]. intro J'. f_equal.
    clear F. induction l as [|[a b] l IH]; [contradiction|]. cbn in N. inversion N as [|? ? X Y]; subst. destruct J as [J|J], J' as [J'|J'].
    + congruence.
    + exfalso. apply X. injection J as -> ->. now apply (in_map fst) in J'.
    + exfalso. apply X. injection J' as -> ->. now apply (in_map fst) in J.
    + auto.
  - split; [discriminate|]. intro J. apply (find_none _ _ F) in J. cbn in J. now rewrite Z.eqb_refl in J.
Qed.
Lemma sing_none id (l : list (Z * (Z * Z))) : option_map snd (find (fun x => fst x =? id) l) = None -> ~ In id (map fst l).
Proof. destruct (find _ l) eqn:F; [discriminate|]. intros _ J. apply in_map_iff in J as ([a b] & E & J). apply (find_none _ _ F) in J. cbn in *. subst. now rewrite Z.eqb_refl in J. Qed.
Lemma gone_sub p l x : In x (gone_sing p l) -> In x l.
Proof. unfold gone_sing. induction l as [|y l IH]; cbn; [auto|]. destruct (_ =? _); cbn; [auto|]. intros [->|J]; auto. Qed.
Lemma gone_keep p l x : In x l -> fst (snd x) <> p -> In x (gone_sing p l).
Proof. unfold gone_sing. induction l as [|y l IH]; cbn; [auto|]. intros [->|J] N; destruct (_ =? _) eqn:E; cbn; auto. apply Z.eqb_eq in E. contradiction. Qed.
Lemma gone_nodup {B} (f : Z * (Z * Z) -> B) p l : NoDup (map f l) -> NoDup (map f (gone_sing p l)).
Proof.
  induction l as [|y l IH]; cbn; [auto|]. intro N. inversion N as [|? ? X Y]; subst. change (gone_sing p (y :: l)) with (if fst (snd y) =? p then l else y :: gone_sing p l). destruct (_ =? _); [auto|]. cbn. constructor; [|auto].
  intro J. apply X. apply in_map_iff in J as (z & E & J). apply gone_sub in J. rewrite <- E. now apply in_map.
Qed.
Lemma gone_all p l : NoDup (map (fun x => fst (snd x)) l) -> forall x, In x (gone_sing p l) -> fst (snd x) <> p.
Proof.
  induction l as [|y l IH]; [contradiction|]. cbn [map]. intro N. inversion N as [|? ? X Y]; subst. intro x. change (gone_sing p (y :: l)) with (if fst (snd y) =? p then l else y :: gone_sing p l). destruct (fst (snd y) =? p) eqn:E.
  - apply Z.eqb_eq in E. intros J K. apply X. rewrite E, <- K. now apply (in_map (fun x => fst (snd x))).
  - apply Z.eqb_neq in E. intros [<-|J]; auto.
Qed.
Lemma NoDup_end {A} (l : list A) x : NoDup l -> ~ In x l -> NoDup (l ++ [x]).
Proof. intros N J. rewrite <- (rev_involutive (l ++ [x])). apply NoDup_rev. rewrite rev_app_distr. cbn. constructor; [now rewrite <- in_rev|now apply NoDup_rev]. Qed.
(* the books have all that are held *)
Lemma sing_books d h : reach d h -> NoDup (map fst (d_sing d)) /\ forall s p q, holds s p q h -> In (s, (p, q)) (d_sing d).
Proof.
  intro R. induction R as [|d h o i d' ev R [N H] P S]; [split; [constructor|intros s p q K; now apply holds_nil in K]|]. pose proof (step_sing _ _ _ _ _ S) as [A B]. rewrite A.
  assert (NC : (forall c, i <> Connect c) -> forall s p q, holds s p q (h ++ [(i, ev)]) -> holds s p q h /\ i <> Exit p) by (intros NC s p q K; apply holds_inv in K as [(c & E & _)|K]; [now apply NC in E|auto]).
  destruct i; cbn [sing_after] in *; try (split; [exact N|intros s p q K; apply NC in K; [apply H, K|discriminate]]).
  - split; [constructor|]. intros s p q K. apply NC in K as [K _]; [|discriminate]. destruct P as [[-> _] _]. now apply holds_nil in K.
  - split; [now apply gone_nodup|]. intros s p q K. apply NC in K as [K E]; [|discriminate]. apply gone_keep; [auto|]. cbn. intros ->. now apply E.
  - assert (K0 : forall s p q, holds s p q (h ++ [(Connect c, ev)]) -> In (s, (p, q)) (d_sing d) \/ (c_sing c = Some s /\ p = c_pid c /\ q = c_ipc c /\ In (Answer p q true) ev)).
    { intros s p q K. apply holds_inv in K as [(c' & E & E1 & E2 & E3 & E4)|[K _]]; [|left; auto]. injection E as <-. right. auto. }
    assert (AN : forall ok, filter ansb ev = [Answer (c_pid c) (c_ipc c) ok] -> forall p q, In (Answer p q true) ev -> ok = true) by (intros ok F p q J; apply (filter_one ansb ev _ _ F) in J; [|auto]; congruence).
    cbn [ans_after] in B. destruct (rank Running <? rank (d_level d)).
    + split; [auto|]. intros s p q K. apply K0 in K as [K|(_ & _ & _ & K)]; [auto|]. apply (AN _ B) in K. discriminate.
    + destruct (c_sing c) as [id|].
      * destruct (singleton id d) as [g|] eqn:F.
        -- split; [auto|]. intros s p q K. apply K0 in K as [K|(_ & _ & _ & K)]; [auto|]. apply (AN _ B) in K. discriminate.
        -- split; [rewrite map_app; cbn; apply NoDup_end; [auto|now apply sing_none]|]. intros s p q K. apply in_or_app. apply K0 in K as [K|(K & -> & -> & _)]; [auto|]. injection K as ->. right. cbn. auto.
      * split; [auto|]. intros s p q K. apply K0 in K as [K|(K & _)]; [auto|discriminate].
Qed.
(* ... and no others, when no process connects twice *)
Lemma holds_connected s p q h : holds s p q h -> exists a c ev b, h = a ++ (Connect c, ev) :: b /\ c_pid c = p /\ ~ In (Exit p) (inputs b).
Proof.
  induction 1 as [h c ev A B C D|h i ev H IH N]; [exists h, c, ev, []; auto|]. destruct IH as (a & c & e & b & -> & E & M). exists a, c, e, (b ++ [(i, ev)]). rewrite <- app_assoc. split; [auto|]. split; [auto|].
  rewrite inputs_app. intro J. apply in_app_or in J as [J|[J|[]]]; auto.
Qed.
Lemma once_prefix h x : connects_once (h ++ x) -> connects_once h.
Proof. intros H a c ev b c' ev' r E. apply (H a c ev b c' ev' (r ++ x)). rewrite E. rewrite <- app_assoc. cbn. f_equal. f_equal. rewrite <- app_assoc. reflexivity. Qed.
Lemma sing_exact d h : reach d h -> connects_once h -> NoDup (map (fun x => fst (snd x)) (d_sing d)) /\ forall s p q, In (s, (p, q)) (d_sing d) -> holds s p q h.
Proof.
  intros R. induction R as [|d h o i d' ev R IH P S]; intro O; [split; [constructor|contradiction]|]. pose proof (step_sing _ _ _ _ _ S) as [A B]. rewrite A. destruct (IH (once_prefix _ _ O)) as [N H].
  assert (KP : forall s p q, In (s, (p, q)) (d_sing d) -> i <> Exit p -> holds s p q (h ++ [(i, ev)])) by (intros s p q J X; apply holds_still; auto).
  destruct i; cbn [sing_after] in *; try (split; [exact N|intros s p q J; apply KP; [exact J|discriminate]]).
  - split; [constructor|contradiction].
  - split; [now apply gone_nodup|]. intros s p q J. apply KP; [now apply gone_sub in J|]. pose proof (gone_all pid (d_sing d) N _ J) as X. cbn in X. congruence.
  - cbn [ans_after] in B. assert (SAME : NoDup (map (fun x => fst (snd x)) (d_sing d)) /\ (forall s p q, In (s, (p, q)) (d_sing d) -> holds s p q (h ++ [(Connect c, ev)]))) by (split; [auto|intros; apply KP; [auto|discriminate]]).
    destruct (rank Running <? rank (d_level d)); [auto|]. destruct (c_sing c) as [id|] eqn:C; [|auto]. destruct (singleton id d) as [g|] eqn:F; [auto|]. split.
    + rewrite map_app. cbn. apply NoDup_end; [auto|]. intro J. apply in_map_iff in J as ([s [p q]] & E & J). cbn in E. subst p. apply H in J. apply holds_connected in J as (a & c' & e & b & -> & E & M). apply M. rewrite <- E.
      apply (O a c' e b c ev []); [rewrite <- app_assoc; auto|auto].
    + intros s p q J. apply in_app_or in J as [J|[J|[]]]; [apply SAME; auto|]. injection J as <- <- <-. apply holds_here; auto. apply (proj1 (filter_In ansb _ ev)). rewrite B. cbn. auto.
Qed.
Theorem singleton_one d h s p q p' q' : reach d h -> holds s p q h -> holds s p' q' h -> p = p' /\ q = q'.
Proof.
  intros R H K. destruct (sing_books d h R) as [N B]. apply B in H. apply B in K. apply (sing_find s (d_sing d) N) in H. apply (sing_find s (d_sing d) N) in K. rewrite H in K. injection K as -> ->. auto.
Qed.
Theorem connect_approved d h c ev p q : reach d (h ++ [(Connect c, ev)]) -> In (Answer p q true) ev -> p = c_pid c /\ q = c_ipc c /\ ~ down h /\ forall s p' q', c_sing c = Some s -> ~ holds s p' q' h.
Proof.
  intros R J. apply reach_last in R as (d0 & o & R0 & P & S). apply step_sing in S as [_ A]. cbn [ans_after] in A. apply (filter_one _ _ _ _ A) in J; [|auto]. injection J as -> -> J. split; [auto|]. split; [auto|].
  change 1 with (rank Running) in J. destruct (rank Running <? rank (d_level d0)) eqn:L; [discriminate|]. split; [now apply (low_level d0 h R0)|]. intros s p' q' C H. rewrite C in J. destruct (sing_books d0 h R0) as [N B]. apply B in H. apply (sing_find s (d_sing d0) N) in H.
  unfold singleton in J. rewrite H in J. discriminate.
Qed.
Theorem connect_denied d h c ev p q : reach d (h ++ [(Connect c, ev)]) -> connects_once h -> In (Answer p q false) ev -> p = c_pid c /\ q = c_ipc c /\ (down h \/ exists s p' q', c_sing c = Some s /\ holds s p' q' h).
Proof.
  intros R O J. apply reach_last in R as (d0 & o & R0 & P & S). apply step_sing in S as [_ A]. cbn [ans_after] in A. apply (filter_one _ _ _ _ A) in J; [|auto]. injection J as -> -> J. split; [auto|]. split; [auto|].
  change 1 with (rank Running) in J. destruct (rank Running <? rank (d_level d0)) eqn:L.
  - left. pose proof (k_level _ _ (reach_kept _ _ R0)) as K. destruct (d_level d0); try discriminate; auto.
  - right. destruct (c_sing c) as [s|]; [|discriminate]. destruct (singleton s d0) as [[p' q']|] eqn:F; [|discriminate]. exists s, p', q'. split; [auto|]. destruct (sing_books d0 h R0) as [N _]. apply (sing_find s (d_sing d0) N) in F. now apply (proj2 (sing_exact d0 h R0 O)).
Qed.
Theorem connect_after_down d h c ev p q ok : reach d (h ++ [(Connect c, ev)]) -> down h -> In (Answer p q ok) ev -> ok = false.
Proof. intros R D J. destruct ok; [|auto]. apply (connect_approved d h c ev p q R) in J. tauto. Qed.
