(* The order of the boot: proofs. *)
From Coq Require Import ZArith List Bool Lia Permutation Relations.
From Verif Require Import DomModel DomSpec.
Import ListNotations.
Local Open Scope Z_scope.

(* ---- the sort gives a permutation ---- *)
Lemma insert_rev_perm x l : Permutation (insert_rev x l) (x :: l).
Proof. induction l as [|y l IH]; cbn [insert_rev]; [auto|]. destruct (before x y); [|auto]. rewrite IH. apply perm_swap. Qed.
Lemma insert_one_perm acc x : Permutation (insert_one acc x) (x :: acc).
Proof.
  unfold insert_one. destruct acc as [|f r]; [auto|]. destruct (before x f); [auto|].
  rewrite <- Permutation_rev. rewrite insert_rev_perm. constructor. symmetry. apply Permutation_rev.
Qed.
Lemma insertion_perm_gen l : forall acc, Permutation (fold_left insert_one l acc) (acc ++ l).
Proof. induction l as [|x l IH]; intro acc; cbn [fold_left]; [now rewrite app_nil_r|]. rewrite IH, insert_one_perm. cbn [app]. apply Permutation_middle. Qed.
Lemma insertion_perm l : Permutation (insertion l) l.
Proof. apply insertion_perm_gen. Qed.
Lemma merge_perm a : forall b, Permutation (merge a b) (a ++ b).
Proof.
  induction a as [|x a IHa]; intro b; [destruct b; auto|]. induction b as [|y b IHb]; [cbn; now rewrite app_nil_r|].
  cbn [merge]. destruct (before y x).
  - change ((fix go (b0 : list group) : list group := match b0 with [] => x :: a | y0 :: b' => if before y0 x then y0 :: go b' else x :: merge a b0 end) b) with (merge (x :: a) b).
    rewrite IHb. apply Permutation_middle.
  - rewrite IHa. auto.
Qed.
Lemma merge_back_perm a : forall b, Permutation (merge_back a b) (a ++ b).
Proof.
  induction a as [|x a IHa]; intro b; [destruct b; auto|]. induction b as [|y b IHb]; [cbn; now rewrite app_nil_r|].
  cbn [merge_back]. destruct (before y x).
  - rewrite IHa. auto.
  - change ((fix go (b0 : list group) : list group := match b0 with [] => x :: a | y0 :: b' => if before y0 x then x :: merge_back a b0 else y0 :: go b' end) b) with (merge_back (x :: a) b).
    rewrite IHb. apply Permutation_middle.
Qed.
Lemma chunks_perm f : forall l, (length l <= f)%nat -> Permutation (concat (chunks f l)) l.
Proof.
  induction f as [|f IH]; intros l L; [destruct l; [auto|cbn in L; lia]|]. destruct l as [|x l]; [auto|].
  cbn [chunks concat]. rewrite insertion_perm, IH; [now rewrite firstn_skipn|]. rewrite skipn_length. cbn [length] in *. lia.
Qed.
Lemma pairs_perm_gen n : forall l, (length l <= n)%nat -> Permutation (concat (pairs l)) (concat l).
Proof.
  induction n as [|n IH]; intros l L; [destruct l; [auto|cbn in L; lia]|]. destruct l as [|a [|b r]]; cbn [pairs]; auto.
  cbn [concat]. rewrite merge_perm, <- app_assoc, IH; [auto|]. cbn [length] in L. lia.
Qed.
Lemma pairs_perm l : Permutation (concat (pairs l)) (concat l).
Proof. now apply (pairs_perm_gen (length l)). Qed.
Lemma passes_perm f : forall l, Permutation (passes f l) (concat l).
Proof.
  induction f as [|f IH]; intro l; destruct l as [|a [|b r]]; cbn [passes]; auto.
  - cbn [concat]. now rewrite app_nil_r.
  - cbn [concat]. now rewrite app_nil_r.
  - rewrite IH. apply pairs_perm.
Qed.
Lemma sort_half_perm l : Permutation (sort_half l) l.
Proof. unfold sort_half. now rewrite passes_perm, chunks_perm. Qed.
Lemma sort_perm l : Permutation (sort l) l.
Proof.
  unfold sort. set (n := Nat.div2 (S (length l))). destruct (_ <=? _)%nat.
  - now rewrite merge_perm, !sort_half_perm, firstn_skipn.
  - rewrite <- Permutation_rev, merge_back_perm, <- !Permutation_rev, !sort_half_perm. now rewrite firstn_skipn.
Qed.

(* ---- when the groups are declared in order, the sort leaves them as they are ---- *)
Definition calm (l : list group) : Prop := forall a x b y c, l = a ++ x :: b ++ y :: c -> before y x = false.
Lemma calm_app l r : calm (l ++ r) -> calm l /\ calm r /\ forall x y, In x l -> In y r -> before y x = false.
Proof.
  intro H. split; [|split].
  - intros a x b y c ->. apply (H a x b y (c ++ r)). repeat (rewrite <- app_assoc; cbn [app]); reflexivity.
  - intros a x b y c ->. apply (H (l ++ a) x b y c). now rewrite <- app_assoc.
  - intros x y A B. apply in_split in A as (l1 & l2 & ->), B as (r1 & r2 & ->). apply (H l1 x (l2 ++ r1) y r2). repeat (rewrite <- app_assoc; cbn [app]); reflexivity.
Qed.
Lemma insert_calm acc x : (forall y, In y acc -> before x y = false) -> insert_one acc x = acc ++ [x].
Proof.
  intro H. unfold insert_one. destruct acc as [|f r]; [auto|]. rewrite (H f (or_introl eq_refl)).
  assert (E : forall l, (forall y, In y l -> before x y = false) -> insert_rev x l = x :: l) by (intros [|y l] G; cbn; [auto|]; now rewrite (G y (or_introl eq_refl))).
  rewrite E; [cbn [rev]; now rewrite rev_app_distr, rev_involutive|]. intros y J. apply H. now apply in_rev.
Qed.
Lemma insertion_calm_gen l : forall acc, calm (acc ++ l) -> fold_left insert_one l acc = acc ++ l.
Proof.
  induction l as [|x l IH]; intros acc H; cbn [fold_left]; [now rewrite app_nil_r|].
  rewrite insert_calm; [rewrite IH; rewrite <- app_assoc; auto|]. intros y J. apply calm_app in H as (_ & _ & H). apply H; cbn; auto.
Qed.
Lemma insertion_calm l : calm l -> insertion l = l.
Proof. intro H. now apply (insertion_calm_gen l []). Qed.
Lemma merge_calm a : forall b, (forall x y, In x a -> In y b -> before y x = false) -> merge a b = a ++ b.
Proof.
  induction a as [|x a IHa]; intros b H; [destruct b; auto|]. destruct b as [|y b]; [cbn; now rewrite app_nil_r|].
  cbn [merge]. rewrite (H x y) by (cbn; auto). cbn [app]. f_equal. apply IHa. intros u v U V. apply H; cbn; auto.
Qed.
Lemma merge_back_calm a : forall b, (forall x y, In x a -> In y b -> before y x = false) -> merge_back a b = b ++ a.
Proof.
  intros b H. revert H. destruct a as [|x a]; intro H; [destruct b; auto using app_nil_r; cbn; now rewrite app_nil_r|].
  induction b as [|y b IHb]; [auto|]. cbn [merge_back]. rewrite (H x y) by (cbn; auto).
  change ((fix go (b0 : list group) : list group := match b0 with [] => x :: a | y0 :: b' => if before y0 x then x :: merge_back a b0 else y0 :: go b' end) b) with (merge_back (x :: a) b).
  rewrite IHb; [auto|]. intros u v U V. apply H; cbn; auto.
Qed.
Lemma chunks_calm f : forall l, (length l <= f)%nat -> calm l -> concat (chunks f l) = l.
Proof.
  induction f as [|f IH]; intros l L H; [destruct l; [auto|cbn in L; lia]|]. destruct l as [|x l]; [auto|].
  rewrite <- (firstn_skipn 7 (x :: l)) in H. apply calm_app in H as (A & B & _).
  cbn [chunks concat]. rewrite insertion_calm, IH; auto; [now rewrite firstn_skipn|]. rewrite skipn_length. cbn [length] in *. lia.
Qed.
Lemma pairs_calm n : forall l, (length l <= n)%nat -> calm (concat l) -> concat (pairs l) = concat l.
Proof.
  induction n as [|n IH]; intros l L H; [destruct l; [auto|cbn in L; lia]|]. destruct l as [|a [|b r]]; cbn [pairs]; auto.
  cbn [concat] in *. rewrite app_assoc in H. apply calm_app in H as (A & B & _). apply calm_app in A as (_ & _ & A). rewrite merge_calm, IH; auto; [now rewrite app_assoc|]. cbn [length] in L. lia.
Qed.
Lemma passes_calm f : forall l, calm (concat l) -> passes f l = concat l.
Proof.
  induction f as [|f IH]; intros l H; destruct l as [|a [|b r]]; cbn [passes]; auto.
  - cbn [concat]. now rewrite app_nil_r.
  - cbn [concat]. now rewrite app_nil_r.
  - rewrite IH; rewrite (pairs_calm _ _ (le_n _)); auto.
Qed.
Lemma sort_half_calm l : calm l -> sort_half l = l.
Proof. intro H. unfold sort_half. rewrite passes_calm; rewrite chunks_calm; auto. Qed.
Lemma sort_calm l : calm l -> sort l = l.
Proof.
  intro H. unfold sort. set (n := Nat.div2 (S (length l))). rewrite <- (firstn_skipn n l) in H. apply calm_app in H as (A & B & C).
  rewrite !sort_half_calm by auto. destruct (_ <=? _)%nat.
  - rewrite merge_calm; auto. apply firstn_skipn.
  - rewrite merge_back_calm; [rewrite rev_app_distr, !rev_involutive; apply firstn_skipn|]. intros x y X Y. apply in_rev in X, Y. auto.
Qed.
Lemma declared_calm gs : NoDup (map g_id gs) -> declared_in_order gs -> calm gs.
Proof.
  intros N H a x b y c E. unfold before, dep. destruct (existsb (Z.eqb (g_id y)) (g_deps x)) eqn:D; [exfalso|reflexivity].
  apply existsb_exists in D as (z & J & D). apply Z.eqb_eq in D. subst z. apply (H a x (b ++ y :: c) E) in J. rewrite E, map_app in N. cbn [map] in N. rewrite map_app in N. cbn [map] in N.
  assert (P : map g_id a ++ g_id x :: map g_id b ++ g_id y :: map g_id c = (map g_id a ++ g_id x :: map g_id b) ++ g_id y :: map g_id c) by (rewrite <- app_assoc; reflexivity).
  rewrite P in N. apply NoDup_remove_2 in N. apply N. apply in_or_app. left. apply in_or_app. auto.
Qed.

(* ---- the batches ---- *)
Lemma consume_in gs : forall es id, In id (concat (consume gs es)) -> exists e g, In e es /\ e_id e = id /\ In g gs /\ member g e = true.
Proof.
  induction gs as [|g gs IH]; intros es id; cbn [consume concat]; [contradiction|]. intro J. apply in_app_or in J as [J|J].
  - apply in_map_iff in J as (e & <- & J). apply filter_In in J as [J M]. exists e, g. cbn. auto.
  - apply IH in J as (e & g' & J & <- & G & M). apply filter_In in J as [J _]. exists e, g'. cbn. auto.
Qed.
Lemma consume_count gs : forall es e, NoDup (map e_id es) -> In e es -> (exists g, In g gs /\ member g e = true) -> count_occ Z.eq_dec (concat (consume gs es)) (e_id e) = 1%nat.
Proof.
  induction gs as [|g gs IH]; intros es e N J (g' & G & M); [contradiction|]. cbn [consume concat]. rewrite count_occ_app.
  assert (NF : forall (p : ent -> bool) l, NoDup (map e_id l) -> NoDup (map e_id (filter p l))).
  { intros p l. induction l as [|x l IHl]; cbn; intro D; [constructor|]. inversion D as [|? ? A B]; subst. destruct (p x); cbn; auto. constructor; auto.
    intro K. apply in_map_iff in K as (y & E & K). apply filter_In in K as [K _]. apply A. rewrite <- E. now apply in_map. }
  assert (U : forall x, In x es -> e_id x = e_id e -> x = e).
  { intros x K E. clear - N J K E. induction es as [|y es IHe]; [contradiction|]. cbn in N. inversion N as [|? ? A B]; subst.
    destruct J as [<-|J], K as [<-|K]; auto; exfalso; apply A; [rewrite <- E|rewrite E]; now apply in_map. }
  destruct (member g e) eqn:Me.
  - assert (A : count_occ Z.eq_dec (map e_id (filter (member g) es)) (e_id e) = 1%nat).
    { apply NoDup_count_occ'; [auto|]. apply in_map. apply filter_In. auto. }
    assert (B : count_occ Z.eq_dec (concat (consume gs (filter (fun x => negb (member g x)) es))) (e_id e) = 0%nat).
    { apply count_occ_not_In. intro K. apply consume_in in K as (x & g2 & K & E & _). apply filter_In in K as [K F]. rewrite (U x K E), Me in F. discriminate. }
    lia.
  - assert (A : count_occ Z.eq_dec (map e_id (filter (member g) es)) (e_id e) = 0%nat).
    { apply count_occ_not_In. intro K. apply in_map_iff in K as (x & E & K). apply filter_In in K as [K F]. rewrite (U x K E), Me in F. discriminate. }
    rewrite A. apply IH; [auto|apply filter_In; rewrite Me; auto|]. destruct G as [<-|G]; [congruence|]. eauto.
Qed.
Lemma concat_filter (l : list (list Z)) : concat (filter (fun b => match b with [] => false | _ => true end) l) = concat l.
Proof. induction l as [|[|x b] l IH]; cbn; auto. now rewrite IH. Qed.
Lemma count_concat_rev (l : list (list Z)) x : count_occ Z.eq_dec (concat (rev l)) x = count_occ Z.eq_dec (concat l) x.
Proof. induction l as [|b l IH]; cbn; [auto|]. rewrite concat_app, !count_occ_app, IH. cbn. rewrite app_nil_r. lia. Qed.
Lemma member_iff g e : member g e = true <-> In (g_id g) (e_memb e).
Proof. unfold member. rewrite existsb_exists. split; [intros (x & J & E); apply Z.eqb_eq in E; now subst|]. intro J. exists (g_id g). split; [auto|apply Z.eqb_refl]. Qed.

Lemma nodup_keep (m : Z) es : NoDup (map e_id es) -> NoDup (map e_id (filter (fun e => negb (e_id e =? m)) es)).
Proof.
  induction es as [|x l IHl]; cbn; intro D; [constructor|]. inversion D as [|? ? A B]; subst. destruct (negb _); cbn; auto. constructor; auto.
  intro K. apply in_map_iff in K as (y & E & K). apply filter_In in K as [K _]. apply A. rewrite <- E. now apply in_map.
Qed.
Theorem placed gs m es e g : NoDup (map e_id es) -> In e es -> e_id e <> m -> in_group gs e g -> count_occ Z.eq_dec (concat (boot_order gs m es)) (e_id e) = 1%nat.
Proof.
  intros N J M [G1 G2]. unfold boot_order. rewrite count_concat_rev, concat_filter. apply consume_count.
  - now apply nodup_keep.
  - apply filter_In. split; [auto|]. apply negb_true_iff. now apply Z.eqb_neq.
  - apply in_map_iff in G2 as (x & <- & G2). exists x. split; [|now apply member_iff]. apply in_rev. rewrite rev_involutive. apply (Permutation_in x (Permutation_sym (sort_perm gs)) G2).
Qed.
Lemma in_concat_rev (l : list (list Z)) x : In x (concat (rev l)) <-> In x (concat l).
Proof. rewrite !in_concat. split; intros (b & J & K); exists b; split; auto; [now apply in_rev|]. apply in_rev. now rewrite rev_involutive. Qed.
Theorem only_those gs m es id : In id (concat (boot_order gs m es)) -> exists e g, In e es /\ e_id e = id /\ id <> m /\ in_group gs e g.
Proof.
  unfold boot_order. rewrite in_concat_rev, concat_filter. intro J. apply consume_in in J as (e & g & J & E & G & M). apply filter_In in J as [J F].
  exists e, (g_id g). split; [auto|]. split; [auto|]. split; [apply negb_true_iff in F; apply Z.eqb_neq in F; congruence|]. split; [now apply member_iff|].
  apply in_map. apply in_rev in G. apply (Permutation_in g (sort_perm gs) G).
Qed.
Theorem none_empty gs m es : ~ In [] (boot_order gs m es).
Proof. unfold boot_order. intro J. apply in_rev in J. apply filter_In in J as [_ F]. discriminate. Qed.

(* ---- in the order of the dependencies ---- *)
(* where the batch of an entity is: the first of the (reversed) groups it's a member of *)
Lemma consume_pos l : forall es e g r, In e es -> member g e = true -> (forall x, In x l -> member x e = false) ->
  exists pre b post, consume (l ++ g :: r) es = pre ++ b :: post /\ In (e_id e) b /\ length pre = length l.
Proof.
  induction l as [|x l IH]; intros es e g r J M N; cbn [app consume].
  - exists [], (map e_id (filter (member g) es)), (consume r (filter (fun e0 => negb (member g e0)) es)). split; [auto|]. split; [|auto]. apply in_map, filter_In. auto.
  - destruct (IH (filter (fun e0 => negb (member x e0)) es) e g r) as (pre & b & post & E & B & L); auto.
    + apply filter_In. rewrite (N x (or_introl eq_refl)). auto.
    + intros y Y. apply N. cbn. auto.
    + rewrite E. exists (map e_id (filter (member x) es) :: pre), b, post. cbn. rewrite L. auto.
Qed.
(* the first that [e] is a member of *)
Lemma first_member gs e : (exists g, In g gs /\ member g e = true) -> exists l g r, gs = l ++ g :: r /\ member g e = true /\ forall x, In x l -> member x e = false.
Proof.
  induction gs as [|x gs IH]; intros (g & J & M); [contradiction|]. destruct (member x e) eqn:E.
  - exists [], x, gs. split; [auto|]. split; [auto|]. intros y [].
  - destruct IH as (l & g' & r & -> & M' & N). { destruct J as [<-|J]; [congruence|eauto]. }
    exists (x :: l), g', r. split; [auto|]. split; [auto|]. intros y [<-|Y]; auto.
Qed.
Lemma split_len {A} (l1 : list A) : forall x r1 l2 y r2, l1 ++ x :: r1 = l2 ++ y :: r2 -> (length l1 < length l2)%nat -> exists m, l2 = l1 ++ x :: m /\ r1 = m ++ y :: r2.
Proof.
  induction l1 as [|a l1 IH]; intros x r1 l2 y r2 E L; destruct l2 as [|b l2]; cbn in *; try lia.
  - injection E as -> ->. exists l2. auto.
  - injection E as -> E. apply IH in E as (m & -> & ->); [|lia]. exists m. auto.
Qed.
Lemma earlier_rev l x m y r a b : In a x -> In b y -> earlier (rev (filter (fun b : list Z => match b with [] => false | _ => true end) (l ++ x :: m ++ y :: r))) b a.
Proof.
  intros A B. rewrite filter_app. cbn [filter]. destruct x as [|x0 x]; [contradiction|]. rewrite filter_app. cbn [filter]. destruct y as [|y0 y]; [contradiction|].
  rewrite rev_app_distr. cbn [rev]. rewrite rev_app_distr. cbn [rev]. rewrite <- !app_assoc. cbn [app].
  eexists _, (y0 :: y), _, (x0 :: x), _. split; [reflexivity|auto].
Qed.
Lemma nodup_split (l1 : list group) : forall x r1 l2 y r2, NoDup (map g_id (l1 ++ x :: r1)) -> l1 ++ x :: r1 = l2 ++ y :: r2 -> g_id x = g_id y -> l1 = l2 /\ x = y /\ r1 = r2.
Proof.
  induction l1 as [|a l1 IH]; intros x r1 l2 y r2 N E F; destruct l2 as [|b l2]; cbn in *.
  - injection E as -> ->. auto.
  - injection E as <- ->. exfalso. inversion N as [|? ? A _]; subst. apply A. rewrite F. apply in_map. apply in_or_app. cbn. auto.
  - injection E as -> <-. exfalso. inversion N as [|? ? A _]; subst. apply A. rewrite <- F. apply in_map. apply in_or_app. cbn. auto.
  - injection E as -> E. inversion N as [|? ? _ N']; subst. destruct (IH _ _ _ _ _ N' E F) as (-> & -> & ->). auto.
Qed.
Lemma in_order_later gs : NoDup (map g_id gs) -> declared_in_order gs -> forall a b, clos_trans Z (depends gs) a b -> forall l g r, gs = l ++ g :: r -> g_id g = a -> In b (map g_id l).
Proof.
  intros N D a b C. apply clos_trans_t1n in C. induction C as [a b (g & J & <- & K)|a b c (g & J & <- & K) C IH]; intros l0 g0 r0 E0 F0.
  - apply in_split in J as (l & r & E). assert (X : l0 = l /\ g0 = g /\ r0 = r). { apply nodup_split; [now rewrite <- E0|congruence|auto]. } destruct X as (-> & -> & ->). apply (D l g r E0 b K).
  - apply in_split in J as (l & r & E). assert (X : l0 = l /\ g0 = g /\ r0 = r). { apply nodup_split; [now rewrite <- E0|congruence|auto]. } destruct X as (-> & -> & ->).
    pose proof (D l g r E0 b K) as B. apply in_map_iff in B as (y & Y & B). apply in_split in B as (l1 & r1 & ->).
    assert (Q : In c (map g_id l1)). { apply (IH l1 y (r1 ++ g :: r)); [|auto]. rewrite E0, <- app_assoc. auto. }
    rewrite map_app. apply in_or_app. auto.
Qed.
(* if the groups are declared in the order of their dependencies, all that the groups of [f] are is what a group of [e] depends on, then [f] is started before [e] *)
Theorem dependencies_first gs m es e f g : NoDup (map g_id gs) -> NoDup (map e_id es) -> declared_in_order gs ->
  In e es -> In f es -> e_id e <> m -> e_id f <> m -> in_group gs e g -> (exists k, in_group gs f k) -> (forall k, in_group gs f k -> clos_trans Z (depends gs) g k) ->
  earlier (boot_order gs m es) (e_id f) (e_id e).
Proof.
  intros N NE D Je Jf Me Mf [G1 G2] (k & K1 & K2) H. unfold boot_order. rewrite (sort_calm _ (declared_calm _ N D)).
  set (es' := filter (fun x => negb (e_id x =? m)) es).
  assert (Je' : In e es') by (apply filter_In; split; [auto|apply negb_true_iff; now apply Z.eqb_neq]).
  assert (Jf' : In f es') by (apply filter_In; split; [auto|apply negb_true_iff; now apply Z.eqb_neq]).
  destruct (first_member (rev gs) e) as (l & ge & r & E & M & X).
  { apply in_map_iff in G2 as (x & <- & G2). exists x. split; [now apply in_rev in G2|now apply member_iff]. }
  destruct (first_member (rev gs) f) as (l' & gf & r' & E' & M' & X').
  { apply in_map_iff in K2 as (x & <- & K2). exists x. split; [now apply in_rev in K2|now apply member_iff]. }
  assert (Eg : gs = rev r ++ ge :: rev l). { rewrite <- (rev_involutive gs), E, rev_app_distr. cbn [rev]. now rewrite <- app_assoc. }
  assert (Eg' : gs = rev r' ++ gf :: rev l'). { rewrite <- (rev_involutive gs), E', rev_app_distr. cbn [rev]. now rewrite <- app_assoc. }
  (* gf comes before ge in the declaration *)
  assert (L : (length l < length l')%nat).
  { assert (Hf : clos_trans Z (depends gs) g (g_id gf)). { apply H. split; [now apply member_iff|]. rewrite Eg'. apply in_map, in_or_app. cbn. auto. }
    apply in_map_iff in G2 as (gg & Fg & G2). apply in_split in G2 as (a & b & Ea). pose proof (in_order_later gs N D _ _ Hf a gg b Ea Fg) as P.
    apply in_map_iff in P as (y & Y & P). apply in_split in P as (a1 & a2 & ->).
    assert (Z1 : rev r' = a1 /\ gf = y /\ rev l' = a2 ++ gg :: b). { apply nodup_split; [now rewrite <- Eg'|rewrite <- Eg', Ea, <- app_assoc; auto|auto]. }
    destruct Z1 as (_ & _ & Z1). assert (Z2 : (length (rev l) <= length b)%nat).
    { destruct (Nat.le_gt_cases (length (rev l)) (length b)) as [|Z2]; [auto|exfalso].
      (* then gg is in rev l, after ge; but it's a member group of e that's later than the last *)
      rewrite Eg in Ea. assert (Z3 : (length (rev r) < length (a1 ++ y :: a2))%nat). { apply (f_equal (@length _)) in Ea. rewrite !app_length in Ea. cbn [length] in Ea. rewrite app_length in *. cbn [length] in *. lia. }
      destruct (split_len _ _ _ _ _ _ Ea Z3) as (mm & _ & Z4). assert (Z5 : In gg l) by (apply in_rev; rewrite Z4; apply in_or_app; cbn; auto). apply X in Z5. assert (Z6 : member gg e = true) by (apply member_iff; now rewrite Fg). congruence. }
    apply (f_equal (@length _)) in Z1. rewrite app_length in Z1. cbn [length] in Z1. rewrite !rev_length in *. lia. }
  rewrite E in E'. destruct (split_len _ _ _ _ _ _ E' L) as (mid & -> & ->). rewrite E.
  assert (Z1 : ge <> gf) by (intros ->; apply (f_equal (@length _)) in E'; assert (member gf f = true) by auto; rewrite (X' gf) in M'; [discriminate|apply in_or_app; cbn; auto]).
  destruct (consume_pos l es' e ge (mid ++ gf :: r') Je' M X) as (pre & b & post & C1 & C2 & C3).
  destruct (consume_pos (l ++ ge :: mid) es' f gf r' Jf' M' X') as (pre' & b' & post' & C1' & C2' & C3').
  rewrite <- app_assoc in C1'. cbn [app] in C1'. rewrite C1 in C1'. assert (L2 : (length pre < length pre')%nat) by (rewrite C3, C3', app_length; cbn [length]; lia).
  destruct (split_len _ _ _ _ _ _ C1' L2) as (m2 & -> & ->). rewrite C1. now apply earlier_rev.
Qed.
