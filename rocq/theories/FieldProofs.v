From Coq Require Import ZArith List Bool Arith Lia Sorted FinFun.
From Verif Require Import Bytes BoModel BoSpec BoProofs FieldModel FieldSpec.
Import ListNotations.
Local Open Scope Z_scope.

(* ---------------------------------------------------------------- the bytes of a field *)
Definition wire (v : value) : list Z :=
  match v with
  | V_number k x => match scalar_of k with Some t => be (width t) x | None => [] end
  | V_string s => s ++ [0]
  | V_binary d => d
  end.
Definition rec (id : Z) (d : list Z) : list Z := be 8 id ++ be 8 (Z.of_nat (length d)) ++ d.
Definition raw (l : list field) : list Z := flat_map (fun f => rec (fst f) (wire (snd f))) l.
Definition wf (f : field) : Prop := is_of (fst f) (snd f) = true /\ good (snd f).

Lemma until_nul_id s : Forall (fun c => is_byte c /\ c <> 0) s -> until_nul s = s.
Proof. induction 1 as [|c s [_ H] _ IH]; [reflexivity|]. cbn [until_nul]. destruct (Z.eqb_spec c 0); [congruence|]. rewrite IH. reflexivity. Qed.
Lemma bytes_of_wire h v : good v -> bytes_of h v = wire v.
Proof.
  destruct v as [k x|s|d]; cbn [good bytes_of wire]; auto.
  - intros (t & E & V). rewrite E. apply encode_be. exact V.
  - intros [F _]. rewrite until_nul_id; auto.
Qed.
Lemma wire_size v : good v -> Z.of_nat (length (wire v)) = size_of v.
Proof.
  destruct v as [k x|s|d]; cbn [good wire size_of].
  - intros (t & E & V). rewrite E. rewrite be_length. reflexivity.
  - intros _. rewrite app_length. cbn. lia.
  - reflexivity.
Qed.
Lemma wire_limit v : good v -> Z.of_nat (length (wire v)) < 2 ^ 63.
Proof.
  intros G. rewrite wire_size by auto. destruct v as [k x|s|d]; cbn [good size_of] in *.
  - destruct G as (t & E & V). rewrite E. destruct t; cbn; lia.
  - destruct G. lia.
  - destruct G. lia.
Qed.
Lemma type_range id v : is_of id v = true -> 0 < id < 2 ^ 40.
Proof.
  unfold is_of, type_of, TYPE_BASE. intros H. apply Z.eqb_eq in H.
  assert (B : 1 <= number (kind_of v) <= 7) by (destruct (kind_of v); cbn; lia). rewrite H in B. Z.to_euclidean_division_equations. lia.
Qed.
Lemma long_be h z : - 2 ^ 63 <= z < 2 ^ 63 -> memory h 8 (encode h T_long z) = be 8 z.
Proof. intros H. apply (encode_be h T_long z). exact H. Qed.
Lemma record_rec h id v : is_of id v = true -> good v -> record h id (bytes_of h v) = rec id (wire v).
Proof.
  intros I G. unfold record, rec. rewrite bytes_of_wire by auto. pose proof (type_range _ _ I). pose proof (wire_limit v G). rewrite !long_be by lia. reflexivity.
Qed.
Lemma rec_length id d : length (rec id d) = (data_offset + length d)%nat.
Proof. unfold rec. rewrite !app_length, !be_length. reflexivity. Qed.
Lemma raw_app l1 l2 : raw (l1 ++ l2) = raw l1 ++ raw l2. Proof. apply flat_map_app. Qed.
Lemma raw_split l1 id v l2 : raw (l1 ++ (id, v) :: l2) = raw l1 ++ rec id (wire v) ++ raw l2.
Proof. rewrite raw_app. reflexivity. Qed.
Lemma skipn_here {A} (l r : list A) n : n = length l -> skipn n (l ++ r) = r.
Proof. intros ->. rewrite skipn_app, Nat.sub_diag, skipn_all. reflexivity. Qed.
Lemma firstn_here {A} (l r : list A) n : n = length l -> firstn n (l ++ r) = l.
Proof. intros ->. rewrite firstn_app, Nat.sub_diag, firstn_all, firstn_O, app_nil_r. reflexivity. Qed.
Lemma decode_here h t z p d r n : value_of t z -> n = length p -> d = p ++ be (width t) z ++ r -> decode_at h t n d = Some z.
Proof.
  intros V -> ->. unfold decode_at. destruct (_ <? _)%nat eqn:E; [apply Nat.ltb_lt in E; rewrite !app_length, be_length in E; lia|].
  rewrite skipn_here by reflexivity. rewrite firstn_here by (rewrite be_length; reflexivity). f_equal. apply decode_of_be. exact V.
Qed.
Lemma decode_size h l1 id v l2 : wf (id, v) -> decode_at h T_long (length (raw l1) + size_offset) (raw (l1 ++ (id, v) :: l2)) = Some (Z.of_nat (length (wire v))).
Proof.
  intros [I G]. cbn [fst snd] in *. pose proof (wire_limit v G). apply (decode_here h T_long _ (raw l1 ++ be 8 id) _ (wire v ++ raw l2)).
  - cbn [value_of]. lia.
  - rewrite app_length, be_length. reflexivity.
  - rewrite raw_split. unfold rec. rewrite <- !app_assoc. reflexivity.
Qed.
Lemma decode_id h l1 id v l2 : wf (id, v) -> decode_at h T_long (length (raw l1)) (raw (l1 ++ (id, v) :: l2)) = Some id.
Proof.
  intros [I G]. cbn [fst snd] in *. pose proof (type_range _ _ I). apply (decode_here h T_long _ (raw l1) _ (be 8 (Z.of_nat (length (wire v))) ++ wire v ++ raw l2)).
  - cbn [value_of]. lia.
  - reflexivity.
  - rewrite raw_split. unfold rec. rewrite <- !app_assoc. reflexivity.
Qed.
Lemma data_here l1 id v l2 : skipn (length (raw l1) + data_offset) (raw (l1 ++ (id, v) :: l2)) = wire v ++ raw l2.
Proof.
  rewrite raw_split. unfold rec. rewrite !app_assoc. rewrite <- (app_assoc _ (wire v) (raw l2)). apply skipn_here. rewrite !app_length, !be_length. unfold data_offset. lia.
Qed.
Lemma strlen_wire s r : Forall (fun c => is_byte c /\ c <> 0) s -> strlen (s ++ 0 :: r) = Some (length s).
Proof. induction 1 as [|c s [_ H] _ IH]; [reflexivity|]. cbn [strlen app length]. destruct (Z.eqb_spec c 0); [congruence|]. rewrite IH. reflexivity. Qed.
Lemma select_binary h l1 id v l2 : wf (id, v) -> select h Binary (length (raw l1)) (raw (l1 ++ (id, v) :: l2)) = Some (V_binary (wire v)).
Proof.
  intros W. unfold select. cbn [scalar_of]. rewrite decode_size by auto.
  destruct (_ || _) eqn:E.
  - apply orb_true_iff in E. destruct E as [E|E]; apply Z.ltb_lt in E; [lia|]. rewrite raw_split, !app_length, rec_length in E. lia.
  - rewrite data_here, Nat2Z.id, firstn_here; reflexivity.
Qed.
Lemma select_wire h l1 id v l2 : wf (id, v) -> select h (kind_of v) (length (raw l1)) (raw (l1 ++ (id, v) :: l2)) = Some v.
Proof.
  intros [I G]. cbn [fst snd] in *. destruct v as [k x|s|d]; cbn [kind_of].
  - destruct G as (t & E & V). unfold select. rewrite E. rewrite (decode_here h t x (raw l1 ++ be 8 id ++ be 8 (Z.of_nat (width t))) _ (raw l2)).
    + reflexivity.
    + exact V.
    + rewrite !app_length, !be_length. unfold data_offset. lia.
    + rewrite raw_split. unfold rec. cbn [wire]. rewrite E, be_length, <- !app_assoc. reflexivity.
  - unfold select. cbn [scalar_of]. rewrite data_here. cbn [wire]. rewrite <- app_assoc. cbn [app]. destruct G as [F _]. rewrite (strlen_wire s _ F), firstn_here; reflexivity.
  - apply (select_binary h l1 id (V_binary d) l2). split; auto.
Qed.

(* ---------------------------------------------------------------- maps *)
Definition keys (x : list (Z * list nat)) : list Z := map fst x.
Definition ordered (x : list (Z * list nat)) : Prop := StronglySorted Z.lt (keys x).
Definition occs (o : option (list nat)) : list nat := match o with None => [] | Some l => l end.
Definition some (o : list nat) : option (list nat) := match o with [] => None | _ => Some o end.
Definition filled (x : list (Z * list nat)) : Prop := Forall (fun e => snd e <> []) x.

Lemma ordered_inv i o x : ordered ((i, o) :: x) -> ordered x /\ Forall (Z.lt i) (keys x).
Proof. intros H. inversion H; subst. split; auto. Qed.
Lemma find_some_in id x o : find_id id x = Some o -> In (id, o) x.
Proof. induction x as [|[i p] x IH]; cbn; [discriminate|]. destruct (Z.eqb_spec i id); [intros E; inversion E; subst; auto|auto]. Qed.
Lemma find_in id x o : ordered x -> In (id, o) x -> find_id id x = Some o.
Proof.
  induction x as [|[i p] x IH]; cbn; [tauto|]. intros S [E|E]; apply ordered_inv in S; destruct S as [S F].
  - inversion E; subst. rewrite Z.eqb_refl. reflexivity.
  - destruct (Z.eqb_spec i id) as [->|]; [|auto]. exfalso. rewrite Forall_forall in F. specialize (F id (in_map fst _ _ E)). lia.
Qed.
Lemma find_keys id x : find_id id x <> None <-> In id (keys x).
Proof. induction x as [|[i p] x IH]; cbn; [tauto|]. destruct (Z.eqb_spec i id); [split; [auto|discriminate]|]. rewrite IH. tauto. Qed.
Lemma map_ext_eq x : forall y, ordered x -> ordered y -> (forall id, find_id id x = find_id id y) -> x = y.
Proof.
  induction x as [|[i o] x IH]; intros y Sx Sy E.
  - destruct y as [|[j q] y]; [reflexivity|]. specialize (E j). cbn in E. rewrite Z.eqb_refl in E. discriminate.
  - destruct y as [|[j q] y]; [specialize (E i); cbn in E; rewrite Z.eqb_refl in E; discriminate|].
    apply ordered_inv in Sx, Sy. destruct Sx as [Sx Fx], Sy as [Sy Fy]. rewrite Forall_forall in Fx, Fy.
    assert (i = j).
    { destruct (Z.lt_trichotomy i j) as [H|[H|H]]; auto; exfalso.
      - pose proof (E i) as Ei. cbn in Ei. rewrite Z.eqb_refl in Ei. destruct (Z.eqb_spec j i); [lia|]. assert (Hk : find_id i y <> None) by congruence. apply find_keys in Hk. specialize (Fy _ Hk). lia.
      - pose proof (E j) as Ej. cbn in Ej. rewrite Z.eqb_refl in Ej. destruct (Z.eqb_spec i j); [lia|]. assert (Hk : find_id j x <> None) by congruence. apply find_keys in Hk. specialize (Fx _ Hk). lia. }
    subst j. pose proof (E i) as Ei. cbn in Ei. rewrite Z.eqb_refl in Ei. inversion Ei; subst q. f_equal. apply IH; auto. intros id. specialize (E id). cbn in E.
    destruct (Z.eqb_spec i id) as [Hi|Hi]; [rewrite <- Hi|exact E].
    destruct (find_id i x) eqn:A; [exfalso; assert (Hk : find_id i x <> None) by congruence; apply find_keys in Hk; specialize (Fx _ Hk); lia|].
    destruct (find_id i y) eqn:B; [exfalso; assert (Hk : find_id i y <> None) by congruence; apply find_keys in Hk; specialize (Fy _ Hk); lia|]. reflexivity.
Qed.
Lemma push_find id p x : ordered x -> forall id', find_id id' (push_id id p x) = if id' =? id then Some (occs (find_id id x) ++ [p]) else find_id id' x.
Proof.
  induction x as [|[i o] x IH]; intros S id'; cbn.
  - rewrite (Z.eqb_sym id id'). destruct (id' =? id); reflexivity.
  - apply ordered_inv in S. destruct S as [S F]. destruct (Z.eqb_spec i id) as [->|Ne]; cbn.
    + rewrite (Z.eqb_sym id id'). destruct (id' =? id); reflexivity.
    + destruct (Z.ltb_spec id i); cbn.
      * rewrite (Z.eqb_sym id id'). destruct (Z.eqb_spec id' id) as [->|]; [|reflexivity].
        destruct (find_id id x) eqn:A; [|reflexivity]. exfalso. rewrite Forall_forall in F. assert (Hk : find_id id x <> None) by congruence. apply find_keys in Hk. specialize (F _ Hk). lia.
      * destruct (Z.eqb_spec i id') as [->|]; [destruct (Z.eqb_spec id' id); [congruence|reflexivity]|]. apply IH. exact S.
Qed.
Lemma push_keys id p x k : In k (keys (push_id id p x)) -> k = id \/ In k (keys x).
Proof. induction x as [|[i o] x IH]; cbn; [intuition|]. destruct (i =? id); cbn; [intuition|]. destruct (id <? i); cbn; intuition. Qed.
Lemma push_ordered id p x : ordered x -> ordered (push_id id p x).
Proof.
  induction x as [|[i o] x IH]; intros S; cbn.
  - constructor; [constructor|constructor].
  - pose proof S as S'. apply ordered_inv in S. destruct S as [S F]. destruct (Z.eqb_spec i id) as [->|Ne]; cbn; [constructor; auto|].
    destruct (Z.ltb_spec id i).
    + constructor; [exact S'|]. cbn. constructor; [lia|]. eapply Forall_impl; [|exact F]. cbn. intros; lia.
    + constructor; [apply IH; exact S|]. apply Forall_forall. intros k Hk. apply push_keys in Hk. rewrite Forall_forall in F. cbn [fst] in *. destruct Hk as [Hk|Hk]; [lia|auto].
Qed.
Lemma shift_find p f id x : find_id id (shift p f x) = option_map (map (fun q => if (p <? q)%nat then f q else q)) (find_id id x).
Proof. induction x as [|[i o] x IH]; cbn; [reflexivity|]. destruct (i =? id); [reflexivity|exact IH]. Qed.
Lemma shift_keys p f x : keys (shift p f x) = keys x.
Proof. unfold keys, shift. rewrite map_map. reflexivity. Qed.
Lemma shift_ordered p f x : ordered x -> ordered (shift p f x).
Proof. unfold ordered. rewrite shift_keys. auto. Qed.
Lemma erase_keys id n x k : In k (keys (erase_id id n x)) -> In k (keys x).
Proof. induction x as [|[i o] x IH]; cbn; [auto|]. destruct (i =? id); cbn; [destruct (drop n o); cbn; intuition|intuition]. Qed.
Lemma erase_ordered id n x : ordered x -> ordered (erase_id id n x).
Proof.
  induction x as [|[i o] x IH]; intros S; cbn; [exact S|]. pose proof S as S'. apply ordered_inv in S. destruct S as [S F]. destruct (i =? id).
  - destruct (drop n o); [exact S|]. constructor; auto.
  - constructor; [apply IH; exact S|]. apply Forall_forall. intros k Hk. rewrite Forall_forall in F. apply F. apply erase_keys in Hk. exact Hk.
Qed.
Lemma erase_find id n x : ordered x -> forall id', find_id id' (erase_id id n x) = if id' =? id then some (drop n (occs (find_id id x))) else find_id id' x.
Proof.
  induction x as [|[i o] x IH]; intros S id'; cbn.
  - destruct (id' =? id); [destruct n|]; reflexivity.
  - apply ordered_inv in S. destruct S as [S F]. destruct (Z.eqb_spec i id) as [->|Ne]; cbn.
    + destruct (Z.eqb_spec id' id) as [->|Ne'].
      * cbn [occs]. destruct (drop n o) as [|q o'] eqn:D; cbn [some find_id]; [|rewrite Z.eqb_refl; reflexivity].
        destruct (find_id id x) eqn:A; [|reflexivity]. exfalso. rewrite Forall_forall in F. assert (Hk : find_id id x <> None) by congruence. apply find_keys in Hk. specialize (F _ Hk). lia.
      * destruct (drop n o); cbn [find_id]; destruct (Z.eqb_spec id id'); congruence.
    + destruct (Z.eqb_spec i id') as [->|]; [destruct (Z.eqb_spec id' id); [congruence|reflexivity]|]. apply IH. exact S.
Qed.

(* ---------------------------------------------------------------- the index of a list of fields *)
Fixpoint offs (id : Z) (p : nat) (l : list field) : list nat :=
  match l with [] => [] | f :: r => (if fst f =? id then [p] else []) ++ offs id (p + length (rec (fst f) (wire (snd f)))) r end.
Fixpoint idx_from (p : nat) (l : list field) (x : list (Z * list nat)) : list (Z * list nat) :=
  match l with [] => x | f :: r => idx_from (p + length (rec (fst f) (wire (snd f)))) r (push_id (fst f) p x) end.
Definition idx (l : list field) : list (Z * list nat) := idx_from 0 l [].

Lemma offs_app id l1 : forall p l2, offs id p (l1 ++ l2) = offs id p l1 ++ offs id (p + length (raw l1)) l2.
Proof.
  induction l1 as [|f l1 IH]; intros p l2; cbn [app offs raw flat_map length]; [rewrite Nat.add_0_r; reflexivity|].
  rewrite IH, <- app_assoc. do 3 f_equal. change (flat_map _ l1) with (raw l1). rewrite app_length. lia.
Qed.
Lemma offs_shift id l : forall p d, offs id (p + d) l = map (fun q => (q + d)%nat) (offs id p l).
Proof.
  induction l as [|f l IH]; intros p d; cbn [offs]; [reflexivity|]. rewrite map_app. rewrite <- IH. f_equal; [destruct (fst f =? id); reflexivity|]. f_equal. lia.
Qed.
Lemma offs_range id l : forall p q, In q (offs id p l) -> (p <= q < p + length (raw l))%nat.
Proof.
  induction l as [|f l IH]; intros p q; cbn [offs]; [intros []|]. rewrite in_app_iff. cbn [raw flat_map]. change (flat_map _ l) with (raw l). rewrite app_length.
  pose proof (rec_length (fst f) (wire (snd f))) as L. unfold data_offset in L. intros [H|H].
  - destruct (fst f =? id); [|destruct H]. destruct H as [<-|[]]. lia.
  - specialize (IH _ _ H). lia.
Qed.
Lemma offs_length id l : forall p, length (offs id p l) = length (values id l).
Proof.
  induction l as [|f l IH]; intros p; cbn [offs]; [reflexivity|]. rewrite app_length, IH. unfold values. cbn [filter]. destruct (fst f =? id); reflexivity.
Qed.
Lemma idx_from_ordered l : forall p x, ordered x -> ordered (idx_from p l x).
Proof. induction l as [|f l IH]; intros p x S; cbn [idx_from]; [exact S|]. apply IH, push_ordered, S. Qed.
Lemma idx_ordered l : ordered (idx l). Proof. apply idx_from_ordered. constructor. Qed.
Lemma idx_from_find l id : forall p x, ordered x -> filled x -> find_id id (idx_from p l x) = some (occs (find_id id x) ++ offs id p l).
Proof.
  induction l as [|f l IH]; intros p x S N; cbn [idx_from offs].
  - rewrite app_nil_r. destruct (find_id id x) as [o|] eqn:E; [|reflexivity]. cbn [occs]. apply find_some_in in E. unfold filled in N. rewrite Forall_forall in N. specialize (N _ E). cbn in N. destruct o; [congruence|reflexivity].
  - rewrite IH.
    + rewrite push_find by auto. rewrite (Z.eqb_sym (fst f) id). destruct (Z.eqb_spec id (fst f)) as [->|]; cbn [occs]; [rewrite <- app_assoc; reflexivity|reflexivity].
    + apply push_ordered, S.
    + clear - N. induction x as [|[i o] x IH]; cbn; [repeat constructor; discriminate|]. inversion N; subst. destruct (i =? fst f); [constructor; auto; cbn; destruct o; discriminate|].
      destruct (fst f <? i); constructor; auto. discriminate. apply IH. auto.
Qed.
Lemma idx_find id l : find_id id (idx l) = some (offs id 0 l).
Proof. unfold idx. rewrite idx_from_find; [reflexivity|constructor|constructor]. Qed.
Lemma idx_eq x l : ordered x -> (forall id, find_id id x = some (offs id 0 l)) -> x = idx l.
Proof. intros S F. apply map_ext_eq; auto. - apply idx_ordered. - intros id. rewrite F, idx_find. reflexivity. Qed.
Lemma idx_from_app l1 : forall p l2 x, idx_from p (l1 ++ l2) x = idx_from (p + length (raw l1)) l2 (idx_from p l1 x).
Proof.
  induction l1 as [|f l1 IH]; intros p l2 x; cbn [app idx_from raw flat_map length]; [rewrite Nat.add_0_r; reflexivity|]. rewrite IH. change (flat_map _ l1) with (raw l1). rewrite app_length. f_equal. lia.
Qed.
Lemma idx_app l f : idx (l ++ [f]) = push_id (fst f) (length (raw l)) (idx l).
Proof. unfold idx. rewrite idx_from_app. reflexivity. Qed.
Lemma occs_some o : occs (some o) = o. Proof. destruct o; reflexivity. Qed.

(* occurrence n of an id *)
Lemma split_at id l : forall n v, nth_error (values id l) n = Some v ->
  exists l1 l2, l = l1 ++ (id, v) :: l2 /\ length (values id l1) = n /\ (forall w, replaced id n w l = l1 ++ (id, w) :: l2) /\ removed id n l = l1 ++ l2.
Proof.
  induction l as [|[i w] l IH]; intros n v E; unfold values in E; cbn [filter fst] in E; [destruct n; discriminate|].
  destruct (Z.eqb_spec i id) as [->|Ne]; cbn [map snd] in E.
  - destruct n as [|n]; cbn in E.
    + inversion E; subst. exists [], l. cbn [replaced removed fst]. rewrite Z.eqb_refl. repeat split; auto.
    + destruct (IH n v E) as (l1 & l2 & El & Ln & R & D). exists ((id, w) :: l1), l2. subst l. cbn [replaced removed fst app]. rewrite Z.eqb_refl. unfold values in *. cbn [filter fst]. rewrite Z.eqb_refl. cbn.
      repeat split; auto; intros; rewrite ?R, ?D; auto.
  - destruct (IH n v E) as (l1 & l2 & El & Ln & R & D). exists ((i, w) :: l1), l2. subst l. cbn [replaced removed fst app]. destruct (Z.eqb_spec i id); [congruence|]. unfold values in *. cbn [filter fst].
    destruct (Z.eqb_spec i id); [congruence|]. repeat split; auto; intros; rewrite ?R, ?D; auto.
Qed.
Lemma value_split id i l v : value_at id i l = Some v ->
  exists l1 l2, l = l1 ++ (id, v) :: l2 /\ 0 <= i /\ length (values id l1) = Z.to_nat i /\ (forall w, replaced id (Z.to_nat i) w l = l1 ++ (id, w) :: l2) /\ removed id (Z.to_nat i) l = l1 ++ l2.
Proof. unfold value_at. destruct (Z.ltb_spec i 0); [discriminate|]. intros E. destruct (split_at id l _ _ E) as (l1 & l2 & A & B & C & D). exists l1, l2. repeat split; auto. Qed.
Lemma offs_split id id' l1 v l2 p : offs id' p (l1 ++ (id, v) :: l2) =
  offs id' p l1 ++ (if id =? id' then [(p + length (raw l1))%nat] else []) ++ offs id' (p + length (raw l1) + data_offset + length (wire v)) l2.
Proof. rewrite offs_app. cbn [offs fst snd]. rewrite rec_length. do 3 f_equal. lia. Qed.
Lemma at_split id i l1 v l2 : length (values id l1) = Z.to_nat i -> 0 <= i -> at_ id i (idx (l1 ++ (id, v) :: l2)) = Some (length (raw l1)).
Proof.
  intros L P. unfold at_. rewrite idx_find, offs_split, Z.eqb_refl. cbn [Nat.add]. destruct (some _) eqn:E; [|destruct (offs id 0 l1); discriminate].
  assert (Eo : occs (some (offs id 0 l1 ++ [length (raw l1)] ++ offs id (length (raw l1) + data_offset + length (wire v)) l2)) = l) by (rewrite E; reflexivity). rewrite occs_some in Eo. subst l.
  destruct (Z.ltb_spec i 0); [lia|]. rewrite nth_error_app2 by (rewrite offs_length; lia). rewrite offs_length, L, Nat.sub_diag. reflexivity.
Qed.
Lemma at_none id i l : value_at id i l = None -> at_ id i (idx l) = None.
Proof.
  unfold value_at, at_. rewrite idx_find. intros E. destruct (some (offs id 0 l)) eqn:S; [|reflexivity]. destruct (i <? 0); [reflexivity|].
  assert (Eo : occs (some (offs id 0 l)) = l0) by (rewrite S; reflexivity). rewrite occs_some in Eo. subst l0. apply nth_error_None. rewrite offs_length. apply nth_error_None. exact E.
Qed.

(* ---------------------------------------------------------------- what the functions do *)
Definition rep (b : buffer) (l : list field) : Prop := b = mk_f (raw l) (idx l) /\ Forall wf l.

Lemma wf_in l1 f l2 : Forall wf (l1 ++ f :: l2) -> wf f /\ Forall wf (l1 ++ l2).
Proof. rewrite !Forall_app. intros [A B]. inversion B; subst. auto. Qed.
Lemma append_rep h id v b l : rep b l -> is_of id v = true -> good v -> rep (append h id v b) (l ++ [(id, v)]).
Proof.
  intros [-> W] I G. split; [|apply Forall_app; split; auto; constructor; auto; split; auto].
  unfold append. cbn [f_data f_index]. rewrite raw_app, idx_app, record_rec by auto. cbn [raw flat_map fst snd]. rewrite app_nil_r. reflexivity.
Qed.
Lemma add_rep h id v b l : rep b l -> is_of id v = true -> good v -> exists b', add h id v b = (b', Code SUCCESS Nothing) /\ rep b' (l ++ [(id, v)]).
Proof. intros R I G. unfold add. unfold is_of in I. rewrite I. cbn [negb]. eexists. split; [reflexivity|]. apply append_rep; auto. Qed.
Lemma number_kind k : kind_of_number (number k) = Some k. Proof. destruct k; reflexivity. Qed.
Lemma kind_number n k : kind_of_number n = Some k -> number k = n.
Proof. intros H. do 8 (destruct n as [|[n|n|]|]; try discriminate; try (inversion H; reflexivity); cbn in H; try (destruct n as [n|n|]; try discriminate; try (inversion H; reflexivity))). Qed.
Lemma empty_good k : good (empty_of k).
Proof. destruct k; cbn; try (eexists; split; [reflexivity|]; cbn; lia); split; constructor. Qed.
Lemma empty_kind k : kind_of (empty_of k) = k. Proof. destruct k; reflexivity. Qed.
Lemma add_empty_rep h id b l k : rep b l -> kind_of_number (type_of id) = Some k -> exists b', add_empty h id b = (b', Code SUCCESS Nothing) /\ rep b' (l ++ [(id, empty_of k)]).
Proof.
  intros R K. unfold add_empty. rewrite K. apply add_rep; auto; [|apply empty_good]. unfold is_of. rewrite empty_kind. apply Z.eqb_eq. apply kind_number. exact K.
Qed.
Lemma is_of_kind id v : is_of id v = true -> kind_of_number (type_of id) = Some (kind_of v).
Proof. unfold is_of. intros H. apply Z.eqb_eq in H. rewrite <- H. apply number_kind. Qed.
Lemma value_wf id i l v : Forall wf l -> value_at id i l = Some v -> wf (id, v).
Proof. intros W E. destruct (value_split id i l v E) as (l1 & l2 & -> & _). apply (wf_in l1 (id, v) l2 W). Qed.
Lemma kind_type id v k : is_of id v = true -> number k = type_of id -> kind_of v = k.
Proof. intros I E. apply is_of_kind in I. rewrite <- E, number_kind in I. congruence. Qed.

Lemma get_rep h id i k b l : rep b l -> number k = type_of id -> get h id i k b = s_get id i l.
Proof.
  intros [-> W] E. unfold get, s_get. rewrite <- E, Z.eqb_refl. cbn [negb f_index f_data]. destruct (value_at id i l) as [v|] eqn:V.
  - pose proof (value_wf _ _ _ _ W V) as Wv. destruct (value_split id i l v V) as (l1 & l2 & -> & P & L & _). rewrite at_split by auto.
    rewrite <- (kind_type id v k (proj1 Wv) E), select_wire by auto. reflexivity.
  - rewrite at_none by auto. reflexivity.
Qed.
Lemma exists_rep id i b l : rep b l -> exists_ id i b = match value_at id i l with None => Code OUT_OF_BOUNDS Nothing | Some _ => Code SUCCESS Nothing end.
Proof.
  intros [-> W]. unfold exists_. cbn [f_index]. destruct (value_at id i l) as [v|] eqn:V; [|rewrite at_none by auto; reflexivity].
  destruct (value_split id i l v V) as (l1 & l2 & -> & P & L & _). rewrite at_split by auto. reflexivity.
Qed.
Lemma stored_rep h id i b l : rep b l -> stored_size h id i b = match value_at id i l with None => Code OUT_OF_BOUNDS Nothing | Some v => Code SUCCESS (Number (size_of v)) end.
Proof.
  intros [-> W]. unfold stored_size. cbn [f_index f_data]. destruct (value_at id i l) as [v|] eqn:V; [|rewrite at_none by auto; reflexivity].
  pose proof (value_wf _ _ _ _ W V) as Wv. destruct (value_split id i l v V) as (l1 & l2 & -> & P & L & _). rewrite at_split, decode_size by auto. rewrite wire_size by apply Wv. reflexivity.
Qed.
Lemma scalar_size v t : good v -> scalar_of (kind_of v) = Some t -> size_of v = Z.of_nat (width t).
Proof. destruct v as [k x|s|d]; cbn [kind_of scalar_of size_of]; try discriminate. intros _ ->. reflexivity. Qed.
Lemma explore_rep h id i b l : rep b l -> explore_value h id i b = s_explore id i l.
Proof.
  intros R. unfold explore_value, s_explore, host_size. rewrite stored_rep with (l := l) by auto. rewrite exists_rep with (l := l) by auto.
  destruct (kind_of_number (type_of id)) as [k|] eqn:K.
  - pose proof (kind_number _ _ K) as N. destruct (value_at id i l) as [v|] eqn:V.
    + pose proof (value_wf _ _ _ _ (proj2 R) V) as Wv. pose proof (kind_type id v k (proj1 Wv) N) as Kv.
      destruct (scalar_of k) as [t|] eqn:T.
      * rewrite <- Kv in T. rewrite (scalar_size v t (proj2 Wv) T). rewrite <- N. rewrite Kv in T. destruct k; try discriminate T; reflexivity.
      * rewrite <- N. destruct k; try discriminate T; reflexivity.
    + rewrite <- N. destruct k; cbn; reflexivity.
  - destruct (Z.eqb_spec (type_of id) (number String)) as [E|E]; [rewrite E in K; discriminate|]. destruct (Z.eqb_spec (type_of id) (number Binary)) as [E'|E']; [rewrite E' in K; discriminate|]. reflexivity.
Qed.
Lemma plain_wire v : scalar_of (kind_of v) = None -> good v -> V_binary (wire v) = plain v.
Proof. destruct v as [k x|s|d]; cbn [kind_of wire plain]; auto. intros E (t & E' & _). congruence. Qed.
Lemma get_value_rep h id i n b l : rep b l -> get_value h id i n b = s_get_value id i n l.
Proof.
  intros R. unfold get_value, s_get_value. destruct (kind_of_number (type_of id)) as [k|] eqn:K; [|reflexivity]. pose proof (kind_number _ _ K) as N.
  destruct (scalar_of k) as [t|] eqn:T.
  - assert (Hf : (match n with None => Some None | Some c => if c <? Z.of_nat (width t) then None else Some (Some (Z.of_nat (width t))) end : option (option Z)) =
                 if fits n (Z.of_nat (width t)) then Some (option_map (fun _ => Z.of_nat (width t)) n) else None).
    { destruct n as [c|]; cbn [fits option_map]; [|reflexivity]. rewrite Z.leb_antisym. destruct (c <? Z.of_nat (width t)); reflexivity. }
    rewrite Hf. destruct (fits n (Z.of_nat (width t))); [|reflexivity]. cbn [negb]. rewrite (get_rep h id i k b l R N). unfold s_get. destruct (value_at id i l); reflexivity.
  - destruct R as [-> W]. cbn [f_index f_data]. destruct (value_at id i l) as [v|] eqn:V; [|rewrite at_none by auto; reflexivity].
    pose proof (value_wf _ _ _ _ W V) as Wv. pose proof (kind_type id v k (proj1 Wv) N) as Kv. destruct (value_split id i l v V) as (l1 & l2 & -> & P & L & _).
    rewrite at_split, decode_size, select_binary by auto. rewrite wire_size by apply Wv. rewrite plain_wire by (try apply Wv; congruence).
    destruct n as [c|]; cbn [fits option_map]; [|reflexivity]. rewrite Z.leb_antisym. destruct (c <? size_of v); reflexivity.
Qed.

Lemma map_low p f o : Forall (fun q => (q <= p)%nat) o -> map (fun q => if (p <? q)%nat then f q else q) o = o.
Proof. induction 1 as [|q o H _ IH]; [reflexivity|]. cbn [map]. destruct (Nat.ltb_spec p q); [lia|]. rewrite IH. reflexivity. Qed.
Lemma map_high p f o : Forall (fun q => (p < q)%nat) o -> map (fun q => if (p <? q)%nat then f q else q) o = map f o.
Proof. induction 1 as [|q o H _ IH]; [reflexivity|]. cbn [map]. destruct (Nat.ltb_spec p q); [|lia]. rewrite IH. reflexivity. Qed.
Lemma low id l1 : Forall (fun q => (q <= length (raw l1))%nat) (offs id 0 l1).
Proof. apply Forall_forall. intros q H. apply offs_range in H. lia. Qed.
Lemma some_map f o : option_map (map f) (some o) = some (map f o). Proof. destruct o; reflexivity. Qed.

Lemma set_rep h id i v b l : rep b l -> is_of id v = true -> good v -> exists b' l', set h id i v b = (b', snd (s_set id i v l)) /\ l' = fst (s_set id i v l) /\ rep b' l'.
Proof.
  intros R I G. pose proof R as [E W]. unfold set, s_set. unfold is_of in I. rewrite I. cbn [negb]. rewrite E. cbn [f_index f_data]. destruct (value_at id i l) as [w|] eqn:V.
  2:{ rewrite at_none by auto. cbn [fst snd]. eexists _, _. split; [reflexivity|]. split; [reflexivity|]. subst b. exact R. }
  pose proof (value_wf _ _ _ _ W V) as Wv. destruct (value_split id i l w V) as (l1 & l2 & -> & P & L & Rp & _). rewrite at_split, decode_size by auto. cbn [fst snd].
  destruct (_ || _) eqn:B; [exfalso; apply orb_true_iff in B; destruct B as [B|B]; apply Z.ltb_lt in B; [lia|rewrite raw_split, !app_length, rec_length in B; lia]|].
  eexists _, _. split; [reflexivity|]. split; [reflexivity|]. rewrite Rp, Nat2Z.id, bytes_of_wire by auto. split.
  - f_equal.
    + rewrite long_be by (pose proof (wire_limit v G); lia).
      assert (F : firstn (length (raw l1) + size_offset) (raw (l1 ++ (id, w) :: l2)) = raw l1 ++ be 8 id).
      { rewrite raw_split. unfold rec. rewrite <- !app_assoc. rewrite (app_assoc (raw l1)). apply firstn_here. rewrite app_length, be_length. reflexivity. }
      assert (S : skipn (length (raw l1) + data_offset + length (wire w)) (raw (l1 ++ (id, w) :: l2)) = raw l2).
      { rewrite raw_split, app_assoc. apply skipn_here. rewrite app_length, rec_length. lia. }
      rewrite F, S, raw_split. unfold rec. rewrite <- !app_assoc. reflexivity.
    + apply idx_eq; [apply shift_ordered, idx_ordered|]. intros id'. rewrite shift_find, idx_find, some_map. f_equal. rewrite !offs_split, !map_app. cbn [Nat.add]. rewrite map_low by apply low. f_equal.
      f_equal; [destruct (id =? id'); cbn [map]; [rewrite Nat.ltb_irrefl|]; reflexivity|].
      rewrite map_high by (apply Forall_forall; intros q H; apply offs_range in H; unfold data_offset in H; lia).
      rewrite !(offs_shift id' l2 (length (raw l1) + data_offset)), map_map. apply map_ext. intros q. lia.
  - apply wf_in in W. destruct W as [_ W]. apply Forall_app in W. apply Forall_app. split; [tauto|]. constructor; [split; auto|tauto].
Qed.

Lemma drop_here {A} (o : list A) x r : drop (length o) (o ++ [x] ++ r) = o ++ r.
Proof. induction o as [|q o IH]; [reflexivity|]. change (q :: drop (length o) (o ++ [x] ++ r) = q :: o ++ r). rewrite IH. reflexivity. Qed.
Lemma remove_rep h id i b l : rep b l -> 0 < id -> exists b', remove h id i b = (b', snd (s_remove id i l)) /\ rep b' (fst (s_remove id i l)).
Proof.
  intros R I. pose proof R as [E W]. unfold remove, s_remove. destruct (Z.leb_spec id 0); [lia|]. rewrite E. cbn [f_index f_data]. destruct (value_at id i l) as [w|] eqn:V.
  2:{ rewrite at_none by auto. cbn [fst snd]. eexists. split; [reflexivity|]. subst b. exact R. }
  pose proof (value_wf _ _ _ _ W V) as Wv. destruct (value_split id i l w V) as (l1 & l2 & -> & P & L & _ & Rm). rewrite at_split, decode_size by auto. cbn [fst snd].
  destruct (_ || _) eqn:B; [exfalso; apply orb_true_iff in B; destruct B as [B|B]; apply Z.ltb_lt in B; [lia|rewrite raw_split, !app_length, rec_length in B; lia]|].
  eexists. split; [reflexivity|]. rewrite Rm. replace (Z.to_nat (Z.of_nat data_offset + Z.of_nat (length (wire w)))) with (data_offset + length (wire w))%nat by lia. split.
  - f_equal.
    + rewrite raw_split, raw_app. rewrite firstn_here by reflexivity. f_equal. rewrite app_assoc. apply skipn_here. rewrite app_length, rec_length. lia.
    + apply idx_eq; [apply shift_ordered, erase_ordered, idx_ordered|]. intros id'. rewrite shift_find, erase_find by apply idx_ordered. rewrite !idx_find, occs_some.
      assert (Hd : (if id' =? id then some (drop (Z.to_nat i) (offs id 0 (l1 ++ (id, w) :: l2))) else some (offs id' 0 (l1 ++ (id, w) :: l2))) =
                   some (offs id' 0 l1 ++ offs id' (length (raw l1) + data_offset + length (wire w)) l2)).
      { rewrite !offs_split. cbn [Nat.add]. rewrite Z.eqb_refl. destruct (Z.eqb_spec id' id) as [->|Ne].
        - f_equal. rewrite <- L, <- (offs_length id l1 0). apply drop_here.
        - destruct (Z.eqb_spec id id'); [congruence|]. reflexivity. }
      rewrite Hd, some_map. f_equal. rewrite map_app, map_low by apply low. rewrite offs_app. f_equal. cbn [Nat.add].
      rewrite map_high by (apply Forall_forall; intros q H'; apply offs_range in H'; unfold data_offset in H'; lia).
      rewrite <- Nat.add_assoc, offs_shift, map_map. rewrite <- (map_id (offs id' (length (raw l1)) l2)) at 2. apply map_ext. intros q. lia.
  - apply wf_in in W. apply W.
Qed.

Lemma count_rep id b l : rep b l -> count id b = occurrences id l.
Proof. intros [-> W]. unfold count, occurrences. cbn [f_index]. rewrite idx_find, <- (offs_length id l 0). destruct (offs id 0 l); reflexivity. Qed.
Lemma push_count id p x : list_sum (map (fun e => length (snd e)) (push_id id p x)) = S (list_sum (map (fun e => length (snd e)) x)).
Proof.
  induction x as [|[i o] x IH]; [reflexivity|]. cbn [push_id]. destruct (i =? id); [|destruct (id <? i)]; cbn [map snd list_sum fold_right length].
  - rewrite app_length. cbn [length]. fold (list_sum (map (fun e => length (snd e)) x)). lia.
  - reflexivity.
  - fold (list_sum (map (fun e : Z * list nat => length (snd e)) (push_id id p x))). rewrite IH. fold (list_sum (map (fun e : Z * list nat => length (snd e)) x)). lia.
Qed.
Lemma count_all_rep b l : rep b l -> count_all b = Z.of_nat (length l).
Proof.
  intros [-> W]. unfold count_all. cbn [f_index]. f_equal. clear W. induction l as [|f l IH] using rev_ind; [reflexivity|]. rewrite idx_app, push_count, IH, app_length. cbn. lia.
Qed.
Lemma values_app id l1 l2 : values id (l1 ++ l2) = values id l1 ++ values id l2.
Proof. unfold values. rewrite filter_app, map_app. reflexivity. Qed.
Lemma value_at_none id i l : 0 <= i -> value_at id i l = None <-> occurrences id l <= i.
Proof. intros P. unfold value_at, occurrences. destruct (Z.ltb_spec i 0); [lia|]. rewrite nth_error_None. lia. Qed.

Lemma replaced_last id v w l : replaced id (length (values id l)) v (l ++ [(id, w)]) = l ++ [(id, v)].
Proof.
  induction l as [|[i u] l IH]; cbn [app replaced fst]; [rewrite Z.eqb_refl; reflexivity|]. unfold values. cbn [filter fst]. destruct (i =? id); cbn [map length]; fold (values id l); rewrite IH; reflexivity.
Qed.
Lemma put_eq h fuel id i v b : put h fuel id i v b =
  if i <? 0 then add h id v b
  else let (b1, r) := set h id i v b in
       match r with
       | Code c _ =>
           if c =? OUT_OF_BOUNDS then
             let (b2, r2) := add_empty h id b1 in
             match r2 with
             | Code c2 _ => if negb (c2 =? SUCCESS) then (b2, r2) else match fuel with O => (b2, Hangs) | S f => put h f id i v b2 end
             | _ => (b2, r2)
             end
           else (b1, r)
       | _ => (b1, r)
       end.
Proof. destruct fuel; reflexivity. Qed.
Lemma put_rep h id i v : is_of id v = true -> good v -> forall fuel b l, rep b l -> i - occurrences id l < Z.of_nat fuel ->
  exists b', put h fuel id i v b = (b', snd (s_put id i v l)) /\ rep b' (fst (s_put id i v l)).
Proof.
  intros I G. induction fuel as [|fuel IH]; intros b l R F; rewrite put_eq; unfold s_put; (destruct (Z.ltb_spec i 0);
    [destruct (add_rep h id v b l R I G) as (b' & E & R'); eexists; split; [exact E|exact R']|]);
    destruct (set_rep h id i v b l R I G) as (b1 & l1 & E & El & R1); rewrite E; (destruct (Z.ltb_spec i (occurrences id l)) as [Lt|Ge];
    [assert (V : value_at id i l <> None) by (rewrite value_at_none by lia; lia); unfold s_set in *; destruct (value_at id i l); [|congruence]; cbn [fst snd] in *;
     change (SUCCESS =? OUT_OF_BOUNDS) with false; cbn iota; eexists; split; [reflexivity|]; rewrite <- El; exact R1|]); [lia|].
  assert (V : value_at id i l = None) by (rewrite value_at_none by lia; lia). unfold s_set in *. rewrite V in *. cbn [fst snd] in *. subst l1. rewrite Z.eqb_refl.
  destruct (add_empty_rep h id b1 l (kind_of v) R1 (is_of_kind _ _ I)) as (b2 & E2 & R2). rewrite E2. rewrite Z.eqb_refl. cbn [negb].
  set (l2 := l ++ [(id, empty_of (kind_of v))]) in *.
  assert (O2 : occurrences id l2 = occurrences id l + 1).
  { unfold occurrences, l2. rewrite values_app, app_length. unfold values at 2. cbn [filter fst]. rewrite Z.eqb_refl. cbn [map length]. lia. }
  assert (Ep : s_put id i v l2 = (l ++ repeat (id, empty_of (kind_of v)) (Z.to_nat (i - occurrences id l)) ++ [(id, v)], Code SUCCESS Nothing)).
  { unfold s_put. destruct (Z.ltb_spec i 0); [lia|]. destruct (Z.ltb_spec i (occurrences id l2)).
    - assert (Ei : i = occurrences id l) by lia. unfold s_set. destruct (value_at id i l2) eqn:V2; [|apply value_at_none in V2; lia]. f_equal. replace (i - occurrences id l) with 0 by lia.
      cbn [Z.to_nat repeat app]. replace (Z.to_nat i) with (length (values id l)) by (unfold occurrences in Ei; lia). apply replaced_last.
    - rewrite O2. f_equal. unfold l2. rewrite <- app_assoc. f_equal. replace (Z.to_nat (i - occurrences id l)) with (S (Z.to_nat (i - (occurrences id l + 1)))) by lia. reflexivity. }
  destruct (IH b2 l2 R2) as (b' & E' & R'); [lia|]. rewrite E', Ep in *. cbn [fst snd] in *. eexists. split; [reflexivity|exact R'].
Qed.
Lemma put_value_rep h id i v b l : rep b l -> is_of id v = true -> good v -> exists b', put_value h id i v b = (b', snd (s_put id i v l)) /\ rep b' (fst (s_put id i v l)).
Proof. intros R I G. apply put_rep; auto. unfold occurrences. lia. Qed.

(* ---------------------------------------------------------------- remove_id *)
Definition without (id : Z) (l : list field) : list field := filter (fun f => negb (fst f =? id)) l.
Lemma without_none id l : values id l = [] -> without id l = l.
Proof. unfold values, without. induction l as [|f l IH]; [reflexivity|]. cbn [filter]. destruct (fst f =? id); cbn [map negb]; [discriminate|]. intros H. rewrite IH by exact H. reflexivity. Qed.
Lemma removed_without id n l : without id (removed id n l) = without id l.
Proof.
  revert n. induction l as [|f l IH]; intros n; [reflexivity|]. cbn [removed]. destruct (fst f =? id) eqn:E.
  - destruct n; cbn [without filter]; rewrite E; cbn [negb]; [reflexivity|apply IH].
  - cbn [without filter]. rewrite E. cbn [negb]. f_equal. apply IH.
Qed.
Lemma removed_count id n l v : nth_error (values id l) n = Some v -> S (length (values id (removed id n l))) = length (values id l).
Proof.
  intros E. destruct (split_at id l n v E) as (l1 & l2 & -> & L & _ & ->). rewrite !values_app, !app_length. unfold values at 4. cbn [filter fst]. rewrite Z.eqb_refl. cbn [map length]. fold (values id l2). lia.
Qed.
Lemma remove_last_rep h id : 0 < id -> forall n b l, rep b l -> n = length (values id l) -> exists b', remove_last h n id b = (b', Code SUCCESS Nothing) /\ rep b' (without id l).
Proof.
  intros I. induction n as [|n IH]; intros b l R L; cbn [remove_last].
  - eexists. split; [reflexivity|]. rewrite without_none; auto. destruct (values id l); [reflexivity|discriminate].
  - destruct (remove_rep h id (Z.of_nat n) b l R I) as (b1 & E & R1). rewrite E.
    assert (V : exists v, nth_error (values id l) n = Some v) by (destruct (nth_error (values id l) n) eqn:V; [eauto|apply nth_error_None in V; lia]). destruct V as [v V].
    unfold s_remove, value_at in *. destruct (Z.ltb_spec (Z.of_nat n) 0); [lia|]. rewrite Nat2Z.id in *. rewrite V in *. cbn [fst snd] in *.
    destruct (IH b1 _ R1) as (b' & E' & R'); [pose proof (removed_count id n l v V); lia|]. rewrite E'. eexists. split; [reflexivity|]. rewrite removed_without in R'. exact R'.
Qed.
Lemma values_nonpos id l : Forall wf l -> id <= 0 -> values id l = [].
Proof.
  intros W L. unfold values. induction W as [|f l [I _] _ IH]; [reflexivity|]. cbn [filter]. pose proof (type_range _ _ I). destruct (Z.eqb_spec (fst f) id); [lia|exact IH].
Qed.
Lemma remove_id_rep h id b l : rep b l -> exists b', remove_id h id b = (b', Code SUCCESS Nothing) /\ rep b' (without id l).
Proof.
  intros R. unfold remove_id. rewrite count_rep with (l := l) by auto. unfold occurrences. rewrite Nat2Z.id. destruct (Z.lt_ge_cases 0 id) as [P|P].
  - apply remove_last_rep; auto.
  - rewrite (values_nonpos id l (proj2 R) P). cbn [length remove_last]. eexists. split; [reflexivity|]. rewrite without_none; auto. apply values_nonpos; auto. apply R.
Qed.

(* ---------------------------------------------------------------- next *)
Lemma least_spec l : match least l with None => l = [] | Some m => In m l /\ Forall (fun y => m <= y) l end.
Proof.
  induction l as [|x l IH]; [reflexivity|]. cbn [least fold_right]. fold (least l). destruct (least l) as [m|].
  - destruct IH as [I F]. destruct (Z.min_spec x m) as [[L E]|[L E]]; rewrite E.
    + split; [left; reflexivity|]. constructor; [lia|]. eapply Forall_impl; [|exact F]. cbn. intros; lia.
    + split; [right; exact I|]. constructor; [lia|exact F].
  - subst l. split; [left; reflexivity|repeat constructor; lia].
Qed.
Lemma least_is l m : In m l -> Forall (fun y => m <= y) l -> least l = Some m.
Proof.
  intros I F. pose proof (least_spec l) as S. destruct (least l) as [k|]; [|subst; destruct I]. destruct S as [I' F']. rewrite Forall_forall in F, F'. specialize (F _ I'). specialize (F' _ I). f_equal. lia.
Qed.
Lemma idx_keys id l : In id (keys (idx l)) <-> In id (map fst l).
Proof.
  rewrite <- find_keys, idx_find. assert (H : offs id 0 l <> [] <-> In id (map fst l)).
  { generalize 0%nat. induction l as [|f l IH]; intros p; cbn [offs map In]; [tauto|]. rewrite <- (IH (p + length (rec (fst f) (wire (snd f))))%nat). destruct (Z.eqb_spec (fst f) id); cbn [app]; [split; [auto|discriminate]|]. tauto. }
  rewrite <- H. destruct (offs id 0 l); cbn; intuition discriminate.
Qed.
Lemma first_rep l : first_id l = match idx l with [] => None | (j, _) :: _ => Some j end.
Proof.
  unfold first_id. pose proof (idx_ordered l) as S. destruct (idx l) as [|[j o] x] eqn:E.
  - pose proof (least_spec (map fst l)) as L. destruct (least (map fst l)) as [m|]; [|reflexivity]. destruct L as [I _]. apply idx_keys in I. rewrite E in I. destruct I.
  - apply least_is.
    + apply idx_keys. rewrite E. left. reflexivity.
    + apply Forall_forall. intros y Hy. apply idx_keys in Hy. rewrite E in Hy. apply ordered_inv in S. destruct S as [_ F]. rewrite Forall_forall in F. destruct Hy as [Hy|Hy]; [cbn in Hy; lia|]. specialize (F _ Hy). lia.
Qed.
Lemma after_rep id x : ordered x -> In id (keys x) -> after id x = least (filter (fun y => id <? y) (keys x)).
Proof.
  induction x as [|[i o] x IH]; [intros _ []|]. intros S I. pose proof (ordered_inv _ _ _ S) as [S' F]. cbn [after keys map fst filter]. destruct (Z.eqb_spec i id) as [->|Ne].
  - rewrite Z.ltb_irrefl. destruct x as [|[j q] x]; [reflexivity|]. symmetry. apply least_is.
    + apply filter_In. split; [left; reflexivity|]. inversion F; subst. apply Z.ltb_lt. exact H1.
    + apply Forall_forall. intros y Hy. apply filter_In in Hy. destruct Hy as [Hy _]. apply ordered_inv in S'. destruct S' as [_ F']. rewrite Forall_forall in F'. destruct Hy as [Hy|Hy]; [cbn in Hy; lia|]. specialize (F' _ Hy). lia.
  - destruct I as [I|I]; [cbn in I; congruence|]. rewrite Forall_forall in F. specialize (F _ I). destruct (Z.ltb_spec id i); [lia|]. apply IH; auto.
Qed.
Lemma least_ext l l' : (forall x, In x l <-> In x l') -> least l = least l'.
Proof.
  intros E. pose proof (least_spec l) as S. destruct (least l) as [m|].
  - destruct S as [I F]. symmetry. apply least_is; [apply E; exact I|]. rewrite Forall_forall in *. intros y Hy. apply F, E, Hy.
  - subst l. destruct l' as [|y l']; [reflexivity|]. exfalso. apply (E y). left. reflexivity.
Qed.
Lemma next_rep id i b l : rep b l -> next id i b = s_next id i l.
Proof.
  intros [-> W]. unfold next, s_next. cbn [f_index]. rewrite first_rep. destruct (id =? 0); [destruct (idx l) as [|[j o] x]; reflexivity|].
  rewrite idx_find. unfold occurrences. rewrite <- (offs_length id l 0). destruct (offs id 0 l) as [|q o] eqn:E; [reflexivity|]. cbn [some].
  destruct (Z.eqb_spec (Z.of_nat (length (q :: o))) 0); [cbn [length] in *; lia|]. destruct (i + 1 <? Z.of_nat (length (q :: o))); [reflexivity|].
  rewrite after_rep.
  - unfold next_id. rewrite (least_ext (filter (fun y => id <? y) (keys (idx l))) (filter (fun x => id <? x) (map fst l))); [reflexivity|]. intros x. rewrite !filter_In, idx_keys. tauto.
  - apply idx_ordered.
  - apply find_keys. rewrite idx_find, E. discriminate.
Qed.

(* ---------------------------------------------------------------- construct *)
Lemma index_from_rep h l2 : forall fuel l1 x, Forall wf (l1 ++ l2) -> (length l2 < fuel)%nat ->
  index_from h fuel (length (raw l1)) (raw (l1 ++ l2)) x = Built (mk_f (raw (l1 ++ l2)) (idx_from (length (raw l1)) l2 x)).
Proof.
  induction l2 as [|[id v] l2 IH]; intros fuel l1 x W L; destruct fuel as [|fuel]; try (cbn [length] in L; lia).
  - rewrite app_nil_r. cbn [index_from idx_from]. rewrite Nat.ltb_irrefl, Nat.eqb_refl. reflexivity.
  - cbn [index_from]. pose proof (wf_in _ _ _ W) as [Wf _]. unfold field in *. destruct (Nat.ltb_spec (length (raw l1)) (length (raw (l1 ++ (id, v) :: l2)))).
    + rewrite decode_id, decode_size by auto. destruct (Z.ltb_spec (Z.of_nat (length (raw l1) + data_offset) + Z.of_nat (length (wire v))) 0); [lia|].
      assert (E : l1 ++ (id, v) :: l2 = (l1 ++ [(id, v)]) ++ l2) by (rewrite <- app_assoc; reflexivity).
      assert (Lr : length (raw (l1 ++ [(id, v)])) = (length (raw l1) + data_offset + length (wire v))%nat) by (rewrite raw_split, !app_length, rec_length; cbn [raw flat_map length]; lia).
      replace (Z.to_nat (Z.of_nat (length (raw l1) + data_offset) + Z.of_nat (length (wire v)))) with (length (raw (l1 ++ [(id, v)]))) by lia.
      specialize (IH fuel (l1 ++ [(id, v)]) (push_id id (length (raw l1)) x)). rewrite <- E in IH. rewrite IH; [|exact W|cbn [length] in L; lia].
      cbn [idx_from fst snd]. rewrite rec_length, Lr, Nat.add_assoc. reflexivity.
    + exfalso. rewrite raw_split, !app_length, rec_length in H. unfold data_offset in H. lia.
Qed.
Lemma raw_ge l : (length l <= length (raw l))%nat.
Proof. induction l as [|f l IH]; [cbn; lia|]. cbn [raw flat_map length]. change (flat_map _ l) with (raw l). rewrite app_length, rec_length. unfold data_offset. lia. Qed.
Lemma construct_rep h l : Forall wf l -> construct h (raw l) = Built (mk_f (raw l) (idx l)).
Proof. intros W. unfold construct. apply (index_from_rep h l (S (length (raw l))) [] []); auto. pose proof (raw_ge l). lia. Qed.
Lemma memory_rep h l b : Forall wf l -> memory_copy h (raw l) b = (mk_f (raw l) (idx l), Code SUCCESS Nothing).
Proof. intros W. unfold memory_copy. rewrite construct_rep by auto. reflexivity. Qed.

(* ---------------------------------------------------------------- all operations *)
Definition reps (s : list buffer) (t : list (list field)) : Prop := Forall2 rep s t.
Lemma reps_nth s t k : reps s t -> match nth_error s k, nth_error t k with Some b, Some l => rep b l | None, None => True | _, _ => False end.
Proof. intros R. revert k. induction R as [|b l s t H _ IH]; intros [|k]; cbn; auto. apply IH. Qed.
Lemma reps_put s t k b l : reps s t -> rep b l -> (k < length s)%nat -> reps (firstn k s ++ b :: skipn (S k) s) (firstn k t ++ l :: skipn (S k) t).
Proof. intros R Rb. revert k. induction R as [|b0 l0 s t H Rt IH]; intros [|k] L; cbn [length] in L; try lia; cbn [firstn skipn app]; constructor; auto. apply IH. lia. Qed.
Lemma on_rep k s t f g : reps s t -> (forall b l, rep b l -> exists b', f b = (b', snd (g l)) /\ rep b' (fst (g l))) ->
  snd (on k s f) = snd (s_on k t g) /\ reps (fst (on k s f)) (fst (s_on k t g)).
Proof.
  intros R H. unfold on, s_on. pose proof (reps_nth s t k R) as N. destruct (nth_error s k) as [b|] eqn:E, (nth_error t k) as [l|] eqn:E'; try contradiction; [|split; auto].
  destruct (H b l N) as (b' & F & R'). rewrite F. destruct (g l) as [l' r]. cbn [fst snd] in *. split; [reflexivity|]. apply reps_put; auto. apply nth_error_Some. congruence.
Qed.
Lemma rep_nil : rep (mk_f [] []) []. Proof. split; [reflexivity|constructor]. Qed.
Lemma on_get_rep k s t f g : reps s t -> (forall b l, rep b l -> f b = g l) -> snd (on_get k s f) = snd (s_on_get k t g) /\ reps (fst (on_get k s f)) (fst (s_on_get k t g)).
Proof.
  intros R H. unfold on_get, s_on_get. pose proof (reps_nth s t k R) as N. destruct (nth_error s k) as [b|] eqn:E, (nth_error t k) as [l|] eqn:E'; try contradiction; cbn [fst snd]; split; auto.
  rewrite (H _ _ rep_nil). reflexivity.
Qed.
Lemma step_rep h o s t : reps s t -> good_op o -> snd (step h o s) = snd (s_step o t) /\ reps (fst (step h o s)) (fst (s_step o t)).
Proof.
  intros R G. unfold good_op in G.
  destruct o; cbn [step s_step values_of] in *; unfold checked, s_checked; try (inversion G as [|? ? Gv _]; subst; clear G).
  - cbn [fst snd]. split; [reflexivity|]. apply Forall2_app; auto. constructor; [exact rep_nil|constructor].
  - change (number (kind_of v) =? type_of id) with (is_of id v). destruct (is_of id v) eqn:I; cbn [negb]; [|cbn [fst snd]; auto]. apply on_rep; auto. intros b l Rb. destruct (add_rep h id v b l Rb I Gv) as (b' & E & R'). eexists. split; [exact E|exact R'].
  - destruct (kind_of_number (type_of id)) as [q|] eqn:K; [|cbn [fst snd]; auto]. apply on_rep; auto. intros b l Rb. destruct (add_empty_rep h id b l q Rb K) as (b' & E & R'). eexists. split; [exact E|exact R'].
  - destruct (Z.eqb_spec (number t0) (type_of id)) as [E|E]; cbn [negb]; [|cbn [fst snd]; auto]. apply on_rep; auto. intros b l Rb. eexists. cbn [fst snd]. rewrite (get_rep h id i t0 b l Rb E). split; [reflexivity|exact Rb].
  - apply on_get_rep; auto. intros b l Rb. apply get_value_rep. exact Rb.
  - apply on_get_rep; auto. intros b l Rb. apply explore_rep. exact Rb.
  - change (number (kind_of v) =? type_of id) with (is_of id v). destruct (is_of id v) eqn:I; cbn [negb]; [|cbn [fst snd]; auto]. apply on_rep; auto. intros b l Rb. destruct (set_rep h id i v b l Rb I Gv) as (b' & l' & E & El & R'). subst l'. eexists. split; [exact E|exact R'].
  - change (number (kind_of v) =? type_of id) with (is_of id v). destruct (is_of id v) eqn:I; cbn [negb]; [|cbn [fst snd]; auto]. apply on_rep; auto. intros b l Rb. apply put_value_rep; auto.
  - destruct (Z.leb_spec id 0); [cbn [fst snd]; auto|]. apply on_rep; auto. intros b l Rb. apply remove_rep; auto.
  - apply on_rep; auto. intros b l Rb. apply remove_id_rep; auto.
  - apply on_rep; auto. intros b l Rb. eexists. split; [reflexivity|exact rep_nil].
  - destruct (id =? 0); [cbn [fst snd]; auto|]. apply on_rep; auto. intros b l Rb. eexists. cbn [fst snd]. rewrite (count_rep id b l Rb). split; [reflexivity|exact Rb].
  - apply on_rep; auto. intros b l Rb. eexists. cbn [fst snd]. rewrite (count_all_rep b l Rb). split; [reflexivity|exact Rb].
  - apply on_rep; auto. intros b l Rb. eexists. cbn [fst snd]. rewrite (next_rep id i b l Rb). split; [reflexivity|exact Rb].
  - pose proof (reps_nth s t from R) as N. destruct (nth_error s from) as [b|], (nth_error t from) as [l|]; try contradiction; [|cbn [fst snd]; auto]. apply on_rep; auto. intros b0 l0 _. eexists. split; [reflexivity|exact N].
  - pose proof (reps_nth s t from R) as N. destruct (nth_error s from) as [b|], (nth_error t from) as [l|]; try contradiction; [|cbn [fst snd]; auto]. apply on_rep; auto. intros b0 l0 _. destruct N as [-> W]. cbn [f_data]. rewrite memory_rep by auto. eexists. split; [reflexivity|split; auto].
  - apply on_rep; auto. intros b l [-> W]. cbn [f_data]. rewrite memory_rep by auto. eexists. split; [reflexivity|split; auto].
Qed.
Lemma run_rep l : forall s t, reps s t -> Forall (fun x => good_op (snd x)) l -> snd (run l s) = snd (s_run l t) /\ reps (fst (run l s)) (fst (s_run l t)).
Proof.
  induction l as [|[h o] l IH]; intros s t R G; [cbn; auto|]. inversion G; subst. cbn [run s_run]. destruct (step_rep h o s t R H1) as [E R1]. destruct (step h o s) as [s1 x], (s_step o t) as [t1 y]. cbn [fst snd] in *. subst y.
  destruct (IH s1 t1 R1 H2) as [E2 R2]. destruct (run l s1), (s_run l t1). cbn [fst snd] in *. subst. auto.
Qed.

(* ---------------------------------------------------------------- walk *)
Lemma nodup_app {A} (l l' : list A) : NoDup l -> NoDup l' -> (forall x, In x l -> ~ In x l') -> NoDup (l ++ l').
Proof. induction l as [|a l IH]; cbn; auto. intros N N' D. inversion N; subst. constructor; [intros H; apply in_app_or in H; destruct H; [auto|apply (D a); auto]|]. apply IH; auto. Qed.
Definition places (e : Z * list nat) : list (Z * Z) := map (fun n => (fst e, Z.of_nat n)) (seq 0 (length (snd e))).
Lemma walk_id id o x0 x d : ordered (x0 ++ (id, o) :: x) -> 0 < id -> (forall f r, r = flat_map places x -> (length r <= f)%nat -> forall i, 
     i = Z.of_nat (length o) - 1 -> walk (S f) (mk_f d (x0 ++ (id, o) :: x)) id i = Some r) ->
  forall n f i, (n <= length o)%nat -> i = Z.of_nat (length o) - 1 - Z.of_nat n -> 0 <= i -> (n + length (flat_map places x) <= f)%nat ->
    walk (S f) (mk_f d (x0 ++ (id, o) :: x)) id i = Some (map (fun k => (id, Z.of_nat k)) (seq (length o - n) n) ++ flat_map places x).
Proof.
  intros So P B. assert (Fi : find_id id (x0 ++ (id, o) :: x) = Some o) by (apply find_in; auto; apply in_or_app; right; left; reflexivity).
  induction n as [|n IH]; intros f i L E Pi F.
  - cbn [seq map app]. apply (B f _ eq_refl); lia.
  - cbn [walk]. unfold next. cbn [f_index]. destruct (Z.eqb_spec id 0); [lia|]. rewrite Fi. destruct (Z.ltb_spec (i + 1) (Z.of_nat (length o))); [|lia]. rewrite Z.eqb_refl.
    destruct f as [|f]; [lia|]. rewrite (IH f (i + 1)) by lia. replace (length o - S n)%nat with (Z.to_nat (i + 1)) by lia. cbn [seq map app].
    replace (S (Z.to_nat (i + 1))) with (length o - n)%nat by lia. rewrite Z2Nat.id by lia. reflexivity.
Qed.
Lemma after_here id o x0 x : ordered (x0 ++ (id, o) :: x) -> after id (x0 ++ (id, o) :: x) = match x with [] => None | (j, _) :: _ => Some j end.
Proof.
  induction x0 as [|[j q] x0 IH]; cbn [app after]; [rewrite Z.eqb_refl; reflexivity|]. intros So. apply ordered_inv in So. destruct So as [So F]. destruct (Z.eqb_spec j id) as [->|]; [|auto].
  exfalso. rewrite Forall_forall in F. specialize (F id). assert (H : In id (keys (x0 ++ (id, o) :: x))) by (unfold keys; rewrite map_app; apply in_or_app; right; left; reflexivity). specialize (F H). lia.
Qed.
Lemma walk_from d x : forall x0 id o, ordered (x0 ++ (id, o) :: x) -> filled x -> (forall k, In k (keys (x0 ++ (id, o) :: x)) -> 0 < k) ->
  forall f, (length (flat_map places x) <= f)%nat -> walk (S f) (mk_f d (x0 ++ (id, o) :: x)) id (Z.of_nat (length o) - 1) = Some (flat_map places x).
Proof.
  induction x as [|[j q] x IH]; intros x0 id o So N K f L.
  - cbn [walk]. unfold next. cbn [f_index]. assert (P : 0 < id) by (apply K; unfold keys; rewrite map_app; apply in_or_app; right; left; reflexivity). destruct (Z.eqb_spec id 0); [lia|].
    rewrite (find_in id _ o So) by (apply in_or_app; right; left; reflexivity). destruct (Z.ltb_spec (Z.of_nat (length o) - 1 + 1) (Z.of_nat (length o))); [lia|]. rewrite (after_here id o x0 [] So). reflexivity.
  - cbn [walk]. unfold next. cbn [f_index]. assert (P : 0 < id) by (apply K; unfold keys; rewrite map_app; apply in_or_app; right; left; reflexivity). destruct (Z.eqb_spec id 0); [lia|].
    rewrite (find_in id _ o So) by (apply in_or_app; right; left; reflexivity). destruct (Z.ltb_spec (Z.of_nat (length o) - 1 + 1) (Z.of_nat (length o))); [lia|]. rewrite (after_here id o x0 _ So). rewrite Z.eqb_refl.
    assert (E : x0 ++ (id, o) :: (j, q) :: x = (x0 ++ [(id, o)]) ++ (j, q) :: x) by (rewrite <- app_assoc; reflexivity). rewrite E in *.
    inversion N as [|? ? Nq Nx]; subst. cbn [snd] in Nq. destruct q as [|q0 q]; [congruence|].
    assert (Pj : 0 < j) by (apply K; unfold keys; rewrite map_app; apply in_or_app; right; left; reflexivity).
    cbn [flat_map] in L. rewrite app_length in L. unfold places at 1 in L. rewrite map_length, seq_length in L. cbn [snd] in L. set (o' := q0 :: q) in *. assert (Lo : (0 < length o')%nat) by (cbn; lia).
    destruct f as [|f]; [lia|].
    rewrite (walk_id j o' (x0 ++ [(id, o)]) x d So Pj) with (n := (length o' - 1)%nat) by (try lia; intros g r -> Lg i ->; apply IH; auto).
    cbn [flat_map]. unfold places at 2. cbn [fst snd]. replace (length o' - (length o' - 1))%nat with 1%nat by lia.
    f_equal. change (flat_map places x) with (flat_map places x). replace (seq 0 (length o')) with (0%nat :: seq 1 (length o' - 1)).
    + cbn [map app]. reflexivity.
    + destruct (length o') as [|k]; [lia|]. cbn [seq]. replace (S k - 1)%nat with k by lia. reflexivity.
Qed.
Lemma idx_filled l : filled (idx l).
Proof.
  apply Forall_forall. intros [i o] H. cbn [snd]. pose proof (find_in i _ o (idx_ordered l) H) as F. rewrite idx_find in F. destruct (offs i 0 l); cbn [some] in F; [discriminate|]. inversion F; subst. discriminate.
Qed.
Lemma places_idx id i l : In (id, i) (flat_map places (idx l)) <-> 0 <= i < occurrences id l.
Proof.
  unfold occurrences. rewrite <- (offs_length id l 0), in_flat_map. split.
  - intros ([j o] & I & H). unfold places in H. cbn [fst snd] in H. apply in_map_iff in H. destruct H as (n & E & Hn). apply in_seq in Hn. inversion E; subst.
    pose proof (find_in id _ o (idx_ordered l) I) as F. rewrite idx_find in F. destruct (offs id 0 l); cbn [some] in F; [discriminate|]. inversion F; subst. lia.
  - intros H. destruct (offs id 0 l) as [|q o] eqn:E; [cbn in H; lia|]. exists (id, q :: o). split; [apply find_some_in; rewrite idx_find, E; reflexivity|].
    unfold places. cbn [fst snd]. apply in_map_iff. exists (Z.to_nat i). split; [f_equal; lia|]. apply in_seq. lia.
Qed.
Lemma places_nodup x : ordered x -> NoDup (flat_map places x).
Proof.
  induction x as [|[i o] x IH]; intros So; [constructor|]. apply ordered_inv in So. destruct So as [So F]. cbn [flat_map]. apply nodup_app; [|apply IH; exact So|].
  - unfold places. apply FinFun.Injective_map_NoDup; [intros a b H; inversion H; lia|apply seq_NoDup].
  - intros [a b] H H'. unfold places in H. cbn [fst snd] in H. apply in_map_iff in H. destruct H as (n & E & _). inversion E; subst. apply in_flat_map in H'. destruct H' as ([j q] & I & H').
    unfold places in H'. apply in_map_iff in H'. destruct H' as (n' & E' & _). cbn [fst] in E'. inversion E'; subst. rewrite Forall_forall in F. specialize (F _ (in_map fst _ _ I)). cbn [fst] in F. lia.
Qed.
Lemma places_length l : length (flat_map places (idx l)) = length l.
Proof.
  pose proof (count_all_rep) as C. clear C. transitivity (list_sum (map (fun e : Z * list nat => length (snd e)) (idx l))).
  - generalize (idx l). intros x. induction x as [|[i o] x IH]; [reflexivity|]. cbn [flat_map map list_sum fold_right snd]. rewrite app_length, IH. unfold places. rewrite map_length, seq_length. reflexivity.
  - induction l as [|f l IH] using rev_ind; [reflexivity|]. rewrite idx_app, push_count, IH, app_length. cbn. lia.
Qed.
Lemma walk_rep b l i : rep b l -> exists r, walk (S (length l)) b 0 i = Some r /\ NoDup r /\ length r = length l /\ forall id n, In (id, n) r <-> 0 <= n < occurrences id l.
Proof.
  intros [-> W]. exists (flat_map places (idx l)). split; [|split; [apply places_nodup, idx_ordered|split; [apply places_length|intros; apply places_idx]]].
  pose proof (places_length l) as PL. pose proof (idx_filled l) as N. pose proof (idx_ordered l) as So.
  assert (K : forall k, In k (keys (idx l)) -> 0 < k). { intros k Hk. apply idx_keys in Hk. apply in_map_iff in Hk. destruct Hk as (f & <- & Hf). rewrite Forall_forall in W. destruct (W f Hf) as [I _]. apply type_range in I. lia. }
  cbn [walk]. unfold next. cbn [f_index Z.eqb]. destruct (idx l) as [|[j o] x] eqn:E; [reflexivity|]. rewrite Z.eqb_refl. inversion N as [|? ? No Nx]; subst. cbn [snd] in No.
  rewrite <- PL in *. cbn [flat_map] in *. rewrite app_length in *. unfold places at 1 in PL. unfold places at 1. rewrite map_length, seq_length in *. cbn [snd fst] in *.
  assert (Lo : (0 < length o)%nat) by (destruct o; [congruence|cbn; lia]). assert (Pj : 0 < j) by (apply K; left; reflexivity).
  destruct (length o + length (flat_map places x))%nat as [|f] eqn:Ef; [lia|].
  rewrite (walk_id j o [] x (raw l) So Pj) with (n := (length o - 1)%nat) by (try lia; intros g r -> Lg i0 ->; apply (walk_from (raw l) x [] j o); auto).
  f_equal. unfold places at 2. cbn [fst snd]. replace (length o - (length o - 1))%nat with 1%nat by lia. replace (seq 0 (length o)) with (0%nat :: seq 1 (length o - 1)); [reflexivity|].
  destruct (length o) as [|k]; [lia|]. cbn [seq]. replace (S k - 1)%nat with k by lia. reflexivity.
Qed.


(* ---------------------------------------------------------------- what an operation does to what is read *)
Lemma values_replaced id v id' l : forall n, (n < length (values id l))%nat ->
  values id' (replaced id n v l) = if id' =? id then firstn n (values id l) ++ v :: skipn (S n) (values id l) else values id' l.
Proof.
  unfold values. induction l as [|[j w] l IH]; intros n L; [cbn in L; lia|]. cbn [replaced filter fst] in *. destruct (Z.eqb_spec j id) as [->|Ne].
  - cbn [map snd length] in *. destruct n as [|n].
    + cbn [filter fst map snd firstn app skipn]. destruct (Z.eqb_spec id' id) as [->|N]; [rewrite Z.eqb_refl; reflexivity|]. destruct (Z.eqb_spec id id'); [congruence|]. reflexivity.
    + cbn [filter fst]. specialize (IH n ltac:(lia)). destruct (Z.eqb_spec id' id) as [->|N].
      * rewrite Z.eqb_refl. cbn [map snd firstn app]. rewrite IH. reflexivity.
      * destruct (Z.eqb_spec id id'); [congruence|]. exact IH.
  - cbn [filter fst]. specialize (IH n L). destruct (Z.eqb_spec id' id) as [->|N].
    + destruct (Z.eqb_spec j id); [congruence|]. exact IH.
    + destruct (j =? id'); cbn [map]; rewrite IH; reflexivity.
Qed.
Lemma values_removed id id' l : forall n, values id' (removed id n l) = if id' =? id then firstn n (values id l) ++ skipn (S n) (values id l) else values id' l.
Proof.
  unfold values. induction l as [|[j w] l IH]; intros n; [cbn; destruct (id' =? id), n; reflexivity|]. cbn [removed filter fst]. destruct (Z.eqb_spec j id) as [->|Ne].
  - cbn [map snd]. destruct n as [|n].
    + cbn [firstn app skipn]. destruct (Z.eqb_spec id' id) as [->|N]; [reflexivity|]. destruct (Z.eqb_spec id id'); [congruence|]. reflexivity.
    + cbn [filter fst]. specialize (IH n). destruct (Z.eqb_spec id' id) as [->|N].
      * rewrite Z.eqb_refl. cbn [map snd firstn app]. rewrite IH. reflexivity.
      * destruct (Z.eqb_spec id id'); [congruence|]. exact IH.
  - cbn [filter fst]. specialize (IH n). destruct (Z.eqb_spec id' id) as [->|N].
    + destruct (Z.eqb_spec j id); [congruence|]. exact IH.
    + destruct (j =? id'); cbn [map]; rewrite IH; reflexivity.
Qed.
Lemma nth_firstn_skipn {A} (x : A) (l : list A) n k : (n < length l)%nat ->
  nth_error (firstn n l ++ x :: skipn (S n) l) k = if Nat.eqb k n then Some x else nth_error l k.
Proof.
  revert n k. induction l as [|a l IH]; intros [|n] [|k] L; cbn [length] in L; try lia; cbn [firstn skipn app nth_error Nat.eqb]; auto. apply IH. lia.
Qed.
Lemma nth_removed {A} (l : list A) n k : nth_error (firstn n l ++ skipn (S n) l) k = nth_error l (if (k <? n)%nat then k else S k).
Proof.
  revert n k. induction l as [|a l IH]; intros n k; [destruct n, k; cbn [firstn skipn app nth_error]; destruct (_ <? _)%nat; reflexivity|].
  destruct n as [|n]; [cbn [firstn skipn app]; destruct (Nat.ltb_spec k 0); [lia|reflexivity]|]. destruct k as [|k]; [reflexivity|].
  cbn [firstn app nth_error]. change (skipn (S (S n)) (a :: l)) with (skipn (S n) l). rewrite IH. change (S k <? S n)%nat with (k <? n)%nat. destruct (k <? n)%nat; reflexivity.
Qed.
Lemma value_replaced id i v id' i' l : value_at id i l <> None ->
  value_at id' i' (replaced id (Z.to_nat i) v l) = if (id' =? id) && (i' =? i) then Some v else value_at id' i' l.
Proof.
  unfold value_at. intros H. destruct (Z.ltb_spec i 0); [congruence|]. apply nth_error_Some in H. rewrite values_replaced by exact H.
  destruct (Z.ltb_spec i' 0); [destruct (Z.eqb_spec i' i); [lia|]; rewrite andb_false_r; reflexivity|].
  destruct (Z.eqb_spec id' id) as [->|]; [|reflexivity]. rewrite nth_firstn_skipn by exact H. cbn [andb]. destruct (Z.eqb_spec i' i) as [->|]; [rewrite Nat.eqb_refl; reflexivity|].
  destruct (Nat.eqb_spec (Z.to_nat i') (Z.to_nat i)); [lia|reflexivity].
Qed.
Lemma value_removed id i id' i' l : value_at id i l <> None ->
  value_at id' i' (removed id (Z.to_nat i) l) = value_at id' (if (id' =? id) && (i <=? i') then i' + 1 else i') l.
Proof.
  unfold value_at. intros H. destruct (Z.ltb_spec i 0); [congruence|]. rewrite values_removed.
  destruct (Z.ltb_spec i' 0); [destruct (Z.leb_spec i i'); [lia|]; rewrite andb_false_r; destruct (Z.ltb_spec i' 0); [reflexivity|lia]|].
  destruct (Z.eqb_spec id' id) as [->|]; cbn [andb]; [|destruct (Z.ltb_spec i' 0); [lia|reflexivity]]. rewrite nth_removed.
  destruct (Nat.ltb_spec (Z.to_nat i') (Z.to_nat i)), (Z.leb_spec i i'); try lia.
  - destruct (Z.ltb_spec i' 0); [lia|reflexivity].
  - destruct (Z.ltb_spec (i' + 1) 0); [lia|]. replace (S (Z.to_nat i')) with (Z.to_nat (i' + 1)) by lia. reflexivity.
Qed.
Lemma value_added id v id' i' l : value_at id' i' (l ++ [(id, v)]) = if (id' =? id) && (i' =? occurrences id l) then Some v else value_at id' i' l.
Proof.
  unfold value_at, occurrences, values. rewrite filter_app, map_app. cbn [filter fst]. destruct (Z.ltb_spec i' 0).
  - destruct (Z.eqb_spec i' (Z.of_nat (length (map snd (filter (fun f => fst f =? id) l))))); [lia|]. rewrite andb_false_r. reflexivity.
  - destruct (Z.eqb_spec id' id) as [->|N]; cbn [andb].
    + rewrite Z.eqb_refl. cbn [map snd]. destruct (Z.eqb_spec i' (Z.of_nat (length (map snd (filter (fun f : Z * value => fst f =? id) l))))) as [E|E].
      * rewrite nth_error_app2 by lia. replace (Z.to_nat i' - length _)%nat with 0%nat by lia. reflexivity.
      * destruct (Nat.lt_ge_cases (Z.to_nat i') (length (map snd (filter (fun f : Z * value => fst f =? id) l)))) as [L|L]; [rewrite nth_error_app1 by exact L; reflexivity|].
        transitivity (@None value); [apply nth_error_None; rewrite app_length; cbn [length]; lia|symmetry; apply nth_error_None; lia].
    + destruct (Z.eqb_spec id id'); [congruence|]. cbn [map]. rewrite app_nil_r. reflexivity.
Qed.
Lemma reachable_reps s : reachable s -> exists t, reps s t.
Proof. intros (l & G & ->). eexists. eapply run_rep; [constructor|exact G]. Qed.
Lemma step_get h k id i t s u : reps s u -> number t = type_of id ->
  snd (step h (Get k id i t) s) = match nth_error u k with None => Code INVALID_HANDLE Nothing | Some l => s_get id i l end.
Proof.
  intros R E. destruct (step_rep h (Get k id i t) s u R) as [-> _]; [constructor|]. cbn [s_step]. rewrite (proj2 (Z.eqb_eq _ _) E). unfold s_checked, s_on. cbn [negb]. destruct (nth_error u k); reflexivity.
Qed.
Lemma nth_put {A} (u : list A) k x k' y : nth_error u k = Some y -> nth_error (firstn k u ++ x :: skipn (S k) u) k' = if Nat.eqb k' k then Some x else nth_error u k'.
Proof. intros E. apply nth_firstn_skipn. apply nth_error_Some. congruence. Qed.
Lemma set_get h h' k id i v s k' id' i' t : reachable s -> good v -> number t = type_of id' ->
  snd (step h (Set_ k id i v) s) = Code SUCCESS Nothing ->
  snd (step h' (Get k' id' i' t) (fst (step h (Set_ k id i v) s))) =
    if Nat.eqb k' k && (id' =? id) && (i' =? i) then Code SUCCESS (Value v) else snd (step h' (Get k' id' i' t) s).
Proof.
  intros Rs G T H. destruct (reachable_reps s Rs) as [u R]. destruct (step_rep h (Set_ k id i v) s u R) as [E R']; [constructor; [exact G|constructor]|].
  rewrite E in H. rewrite (step_get h' k' id' i' t _ _ R' T), (step_get h' k' id' i' t s u R T). clear E R'. cbn [s_step] in *. unfold s_checked, s_on, s_set in *. destruct (is_of id v); [|discriminate]. cbn [negb] in *.
  destruct (nth_error u k) as [l|] eqn:N; [|discriminate]. destruct (value_at id i l) eqn:V; [|discriminate]. cbn [fst]. rewrite (nth_put u k _ k' l N).
  destruct (Nat.eqb_spec k' k) as [->|]; [|reflexivity]. cbn [andb]. rewrite N. unfold s_get. rewrite value_replaced by congruence. destruct ((id' =? id) && (i' =? i)); reflexivity.
Qed.
Lemma remove_get h h' k id i s k' id' i' t : reachable s -> number t = type_of id' ->
  snd (step h (Remove k id i) s) = Code SUCCESS Nothing ->
  snd (step h' (Get k' id' i' t) (fst (step h (Remove k id i) s))) =
    snd (step h' (Get k' id' (if Nat.eqb k' k && (id' =? id) && (i <=? i') then i' + 1 else i') t) s).
Proof.
  intros Rs T H. destruct (reachable_reps s Rs) as [u R]. destruct (step_rep h (Remove k id i) s u R) as [E R']; [constructor|].
  rewrite E in H. rewrite (step_get h' k' id' i' t _ _ R' T), (step_get h' k' id' _ t s u R T). clear E R'. cbn [s_step] in *. unfold s_checked, s_on, s_remove in *. destruct (id <=? 0); [discriminate|].
  destruct (nth_error u k) as [l|] eqn:N; [|discriminate]. destruct (value_at id i l) eqn:V; [|discriminate]. cbn [fst]. rewrite (nth_put u k _ k' l N).
  destruct (Nat.eqb_spec k' k) as [->|]; [|reflexivity]. cbn [andb]. rewrite N. unfold s_get. rewrite value_removed by congruence. reflexivity.
Qed.
Lemma add_get h h' k id v s k' id' i' t n : reachable s -> good v -> number t = type_of id' ->
  snd (step h (Count k id) s) = Code SUCCESS (Number n) ->
  snd (step h (Add k id v) s) = Code SUCCESS Nothing ->
  snd (step h' (Get k' id' i' t) (fst (step h (Add k id v) s))) =
    if Nat.eqb k' k && (id' =? id) && (i' =? n) then Code SUCCESS (Value v) else snd (step h' (Get k' id' i' t) s).
Proof.
  intros Rs G T C H. destruct (reachable_reps s Rs) as [u R]. destruct (step_rep h (Add k id v) s u R) as [E R']; [constructor; [exact G|constructor]|].
  destruct (step_rep h (Count k id) s u R) as [Ec _]; [constructor|]. rewrite Ec in C. clear Ec.
  rewrite E in H. rewrite (step_get h' k' id' i' t _ _ R' T), (step_get h' k' id' i' t s u R T). clear E R'. cbn [s_step] in *. unfold s_checked, s_on, s_add in *. destruct (is_of id v); [|discriminate]. cbn [negb] in *.
  destruct (id =? 0); [discriminate|]. destruct (nth_error u k) as [l|] eqn:N; [|discriminate]. cbn [fst snd] in *. inversion C as [C']. rewrite (nth_put u k _ k' l N).
  destruct (Nat.eqb_spec k' k) as [->|]; [|reflexivity]. cbn [andb]. rewrite N. unfold s_get. rewrite value_added, C'. destruct ((id' =? id) && (i' =? n)); reflexivity.
Qed.
