(* Facts about the descriptors, the inbox and the network *)
From Coq Require Import ZArith List Bool Lia.
From Verif Require Import ConvModel ConvSpec.
Import ListNotations.
Local Open Scope Z_scope.

Lemma corr_eqb_eq a b : corr_eqb a b = true <-> a = b.
Proof. destruct a as [a1 a2], b as [b1 b2]. unfold corr_eqb. cbn [fst snd]. rewrite andb_true_iff, !Z.eqb_eq. split; [intros [-> ->]; reflexivity|intros [= -> ->]; auto]. Qed.
Lemma corr_eqb_refl a : corr_eqb a a = true.
Proof. apply corr_eqb_eq. reflexivity. Qed.
Lemma corr_eqb_neq a b : corr_eqb a b = false <-> a <> b.
Proof. rewrite <- corr_eqb_eq. destruct (corr_eqb a b); split; congruence. Qed.
Lemma corr_dec (a b : corr) : {a = b} + {a <> b}.
Proof. destruct (corr_eqb a b) eqn:E; [left; apply corr_eqb_eq; exact E|right; apply corr_eqb_neq; exact E]. Qed.

(* ---------------------------------------------------------------- descriptors *)
Definition at_s (n : nat) (s : proc) : option value := at_ n (p_descs s).
Lemma lookup_some d l n v : lookup d l = Some (n, v) -> d = Z.of_nat n /\ at_ n l = Some v.
Proof.
  unfold lookup. destruct (0 <=? d) eqn:L; [|discriminate]. destruct (d <? _) eqn:U; [|discriminate]. cbn. destruct (at_ (Z.to_nat d) l) as [x|] eqn:A; [|discriminate]. intros [= <- <-]. split; [|exact A]. apply Z.leb_le in L. lia.
Qed.
Lemma lookup_at n l v : at_ n l = Some v -> lookup (Z.of_nat n) l = Some (n, v).
Proof.
  intros A. unfold lookup. rewrite Nat2Z.id, A. assert (L : (n < length l)%nat). { destruct (Nat.lt_ge_cases n (length l)) as [L|G]; [exact L|]. unfold at_ in A. rewrite nth_overflow in A by exact G. discriminate. }
  rewrite (proj2 (Z.leb_le 0 (Z.of_nat n))) by lia. rewrite (proj2 (Z.ltb_lt _ _)) by lia. reflexivity.
Qed.
Lemma lookup_none d l : lookup d l = None -> forall n, d = Z.of_nat n -> at_ n l = None.
Proof. intros L n ->. destruct (at_ n l) as [v|] eqn:A; [rewrite (lookup_at _ _ _ A) in L; discriminate|reflexivity]. Qed.
Lemma at_set n o l v : at_ n l = Some v -> at_ n (set_at n o l) = o.
Proof. revert n. induction l as [|x l IH]; intros [|n]; unfold at_ in *; cbn; intros E; try discriminate; [reflexivity|]. exact (IH n E). Qed.
Lemma at_set_other n k o l : k <> n -> at_ k (set_at n o l) = at_ k l.
Proof. revert n k. induction l as [|x l IH]; intros [|n] [|k] N; unfold at_ in *; cbn; try reflexivity; try congruence. apply IH. congruence. Qed.
Lemma at_set_none n k l : at_ k (set_at n None l) = if (k =? n)%nat then None else at_ k l.
Proof.
  revert n k. induction l as [|x l IH]; intros [|n] [|k]; unfold at_ in *; cbn; try reflexivity; [destruct (k =? n)%nat; reflexivity|]. apply IH.
Qed.
Lemma at_set_some n k v u l : at_ n l = Some u -> at_ k (set_at n (Some v) l) = if (k =? n)%nat then Some v else at_ k l.
Proof. intros A. destruct (k =? n)%nat eqn:E; [apply Nat.eqb_eq in E; subst; exact (at_set _ _ _ _ A)|apply Nat.eqb_neq in E; exact (at_set_other _ _ _ _ E)]. Qed.
Lemma reserve_spec v l l' n : reserve v l = (l', n) -> at_ n l = None /\ forall k, at_ k l' = if (k =? n)%nat then Some v else at_ k l.
Proof.
  revert l' n. induction l as [|[x|] l IH]; intros l' n; cbn [reserve].
  - intros [= <- <-]. split; [reflexivity|]. intros [|k]; unfold at_; cbn; [reflexivity|destruct k; reflexivity].
  - destruct (reserve v l) as [r1 m]. intros [= <- <-]. destruct (IH r1 m eq_refl) as [A B]. split; [exact A|]. intros [|k]; [reflexivity|]. exact (B k).
  - intros [= <- <-]. split; [reflexivity|]. intros [|k]; reflexivity.
Qed.

(* ---------------------------------------------------------------- the inbox *)
Lemma take_split f l m r : take f l = Some (m, r) -> exists a b, l = a ++ m :: b /\ r = a ++ b /\ f m = true /\ forall x, In x a -> f x = false.
Proof.
  revert m r. induction l as [|x l IH]; intros m r; cbn [take]; [discriminate|]. destruct (f x) eqn:F.
  - intros [= <- <-]. exists [], l. repeat split; auto. intros y [].
  - destruct (take f l) as [[y r1]|]; [|discriminate]. intros [= <- <-]. destruct (IH y r1 eq_refl) as (a & b & -> & -> & T & N). exists (x :: a), b. repeat split; auto. intros z [<-|I]; [exact F|exact (N z I)].
Qed.
Lemma take_none f l : take f l = None -> forall x, In x l -> f x = false.
Proof. induction l as [|x l IH]; cbn [take]; [intros _ y []|]. destruct (f x) eqn:F; [discriminate|]. destruct (take f l) as [[y r1]|]; [discriminate|]. intros _ z [<-|I]; [exact F|exact (IH eq_refl z I)]. Qed.
Lemma take_first f l m r : forall a b, l = a ++ m :: b -> r = a ++ b -> f m = true -> (forall x, In x a -> f x = false) -> take f l = Some (m, r).
Proof. intros a. revert l r. induction a as [|x a IH]; intros l r b -> -> F N; cbn [take app]; [rewrite F; reflexivity|]. rewrite (N x (or_introl eq_refl)). rewrite (IH _ (a ++ b) b eq_refl eq_refl F (fun y I => N y (or_intror I))). reflexivity. Qed.

(* the messages of c in an inbox, but for those of the service manager *)
Definition is_died (b : body) : bool := match b with ServerDied => true | _ => false end.
Definition mine (c : corr) (l : list msg) : list body := flat_map (fun m => if corr_eqb (m_corr m) c && negb (is_died (m_body m)) then [m_body m] else []) l.
Lemma mine_app c l r : mine c (l ++ r) = mine c l ++ mine c r.
Proof. apply flat_map_app. Qed.
Lemma mine_in c l b : In b (mine c l) <-> In (mk_msg c b) l /\ is_died b = false.
Proof.
  unfold mine. rewrite in_flat_map. split.
  - intros (m & I & H). destruct (corr_eqb (m_corr m) c) eqn:E; [|destruct H]. destruct (is_died (m_body m)) eqn:D; [destruct H|]. destruct H as [<-|[]]. apply corr_eqb_eq in E. destruct m; cbn in *; subst. auto.
  - intros [I D]. exists (mk_msg c b). split; [exact I|]. cbn. rewrite corr_eqb_refl, D. left. reflexivity.
Qed.
Lemma mine_other c m l : m_corr m <> c -> mine c (m :: l) = mine c l.
Proof. intros N. unfold mine. cbn [flat_map]. rewrite (proj2 (corr_eqb_neq _ _) N). reflexivity. Qed.
Lemma mine_died c c' l : mine c (mk_msg c' ServerDied :: l) = mine c l.
Proof. unfold mine. cbn [flat_map m_body is_died]. rewrite andb_false_r. reflexivity. Qed.
Lemma mine_same c b l : is_died b = false -> mine c (mk_msg c b :: l) = b :: mine c l.
Proof. intros D. unfold mine. cbn [flat_map m_body m_corr]. rewrite corr_eqb_refl, D. reflexivity. Qed.

(* the messages of c on their way *)
Definition way (x y : Z) (c : corr) (l : list (Z * Z * msg)) : list body :=
  flat_map (fun n => let '(a, b, m) := n in if (a =? x) && (b =? y) && corr_eqb (m_corr m) c then [m_body m] else []) l.
Lemma way_app x y c l r : way x y c (l ++ r) = way x y c l ++ way x y c r.
Proof. apply flat_map_app. Qed.
Lemma way_in x y c l b : In b (way x y c l) <-> In (x, y, mk_msg c b) l.
Proof.
  unfold way. rewrite in_flat_map. split.
  - intros ([[a z] m] & I & H). destruct ((a =? x) && (z =? y) && corr_eqb (m_corr m) c) eqn:E; [|destruct H]. destruct H as [<-|[]]. rewrite !andb_true_iff, !Z.eqb_eq, corr_eqb_eq in E. destruct E as [[-> ->] <-]. destruct m; exact I.
  - intros I. exists (x, y, mk_msg c b). split; [exact I|]. cbn. rewrite !Z.eqb_refl, corr_eqb_refl. left. reflexivity.
Qed.
Lemma take_net_split a b l m r : take_net a b l = Some (m, r) -> exists l1 l2, l = l1 ++ (a, b, m) :: l2 /\ r = l1 ++ l2 /\ forall m', ~ In (a, b, m') l1.
Proof.
  revert m r. induction l as [|[[x y] k] l IH]; intros m r; cbn [take_net]; [discriminate|]. destruct ((x =? a) && (y =? b)) eqn:E.
  - intros [= <- <-]. rewrite andb_true_iff, !Z.eqb_eq in E. destruct E as [-> ->]. exists [], l. repeat split; auto.
  - destruct (take_net a b l) as [[m1 r1]|]; [|discriminate]. intros [= <- <-]. destruct (IH m1 r1 eq_refl) as (l1 & l2 & -> & -> & N). exists ((x, y, k) :: l1), l2. repeat split; auto.
    intros m' [[= -> -> _]|I]; [rewrite !Z.eqb_refl in E; discriminate|exact (N m' I)].
Qed.
Lemma way_none x y c l : (forall m, ~ In (x, y, m) l) -> way x y c l = [].
Proof. intros N. destruct (way x y c l) as [|b r] eqn:E; [reflexivity|]. exfalso. apply (N (mk_msg c b)). apply way_in. rewrite E. left. reflexivity. Qed.

(* ---------------------------------------------------------------- histories *)
Lemma of_proc_app x h h' : of_proc x (h ++ h') = of_proc x h ++ of_proc x h'.
Proof. apply flat_map_app. Qed.
Lemma of_proc_one x p i o ev : of_proc x [(p, i, o, ev)] = if p =? x then ev else [].
Proof. unfold of_proc. cbn [flat_map]. apply app_nil_r. Qed.
Definition sent_of (c : corr) (l : list event) : list (bool * Z) := flat_map (fun v => match v with Sent c' g d => if corr_eqb c' c then [(g, d)] else [] | _ => [] end) l.
Definition got_of (c : corr) (l : list event) : list (bool * Z) := flat_map (fun v => match v with Got c' g d _ => if corr_eqb c' c then [(g, d)] else [] | _ => [] end) l.
Lemma sent_step x c h p i o ev : sent x c (h ++ [(p, i, o, ev)]) = sent x c h ++ if p =? x then sent_of c ev else [].
Proof. unfold sent. rewrite of_proc_app, of_proc_one, flat_map_app. destruct (p =? x); reflexivity. Qed.
Lemma got_step x c h p i o ev : got x c (h ++ [(p, i, o, ev)]) = got x c h ++ if p =? x then got_of c ev else [].
Proof. unfold got. rewrite of_proc_app, of_proc_one, flat_map_app. destruct (p =? x); reflexivity. Qed.
Lemma opened_step x h p i o ev : opened x (h ++ [(p, i, o, ev)]) = if p =? x then fold_left after ev (opened x h) else opened x h.
Proof. unfold opened. rewrite of_proc_app, of_proc_one, fold_left_app. destruct (p =? x); reflexivity. Qed.
Lemma control_step x c h p i o ev : control x c (h ++ [(p, i, o, ev)]) = if p =? x then fold_left (control_after c) ev (control x c h) else control x c h.
Proof. unfold control. rewrite of_proc_app, of_proc_one, fold_left_app. destruct (p =? x); reflexivity. Qed.
