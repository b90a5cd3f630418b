From Coq Require Import ZArith List Bool Lia.
From Verif Require Import Bytes BoModel BoSpec BoProofs OrdModel OrdSpec.
Import ListNotations.
Local Open Scope Z_scope.

(* the bytes of a value *)
Definition wire (v : value) : list Z :=
  match v with
  | V_scalar t x => be (width t) x
  | V_string s => s ++ [0]
  | V_binary size d => be 8 size ++ d
  end.
Definition wires (l : list value) : list Z := flat_map wire l.
Lemma wire_length v : good v -> Z.of_nat (length (wire v)) = takes v.
Proof.
  destruct v as [t x|s|size d]; cbn [good wire takes]; intros H.
  - rewrite be_length. reflexivity.
  - rewrite app_length. cbn [length]. lia.
  - rewrite app_length, be_length. destruct H as [-> _]. lia.
Qed.
Lemma wires_length l : Forall good l -> Z.of_nat (length (wires l)) = total l.
Proof.
  induction 1 as [|v r Hv Hr IH]; [reflexivity|]. unfold wires in *. cbn [flat_map total fold_right]. rewrite app_length, Nat2Z.inj_add, (wire_length v Hv). unfold total in IH. lia.
Qed.
Lemma wires_app l1 l2 : wires (l1 ++ l2) = wires l1 ++ wires l2. Proof. apply flat_map_app. Qed.
Lemma bytes_of_be h t v : value_of t v -> bytes_of h t v = be (width t) v.
Proof. intros H. apply encode_be, H. Qed.
Lemma data_insert d f b : b_data (insert_last d f b) = b_data b ++ d /\ b_cursor (insert_last d f b) = b_cursor b.
Proof. unfold insert_last. destruct (_ <=? _)%nat; split; reflexivity. Qed.
Lemma until_nul_id s : Forall (fun c => is_byte c /\ c <> 0) s -> until_nul s = s.
Proof. induction 1 as [|c r [_ Hc] _ IH]; cbn [until_nul]; [reflexivity|]. rewrite (proj2 (Z.eqb_neq c 0) Hc), IH. reflexivity. Qed.
Lemma total_app l1 l2 : total (l1 ++ l2) = total l1 + total l2.
Proof. unfold total. induction l1 as [|v r IH]; cbn [app fold_right]; [reflexivity|]. rewrite IH. lia. Qed.
Lemma takes_pos v : good v -> 0 < takes v.
Proof. destruct v as [t x|s|size d]; cbn [good takes]; intros H; [destruct t; cbn; lia|lia|destruct H as [-> _]; lia]. Qed.
Lemma total_pos l : Forall good l -> 0 <= total l.
Proof. intros H. rewrite <- wires_length by exact H. lia. Qed.

Lemma add_good h v f b : good v -> takes v < 2 ^ 63 -> exists b', add h v f b = (b', Code SUCCESS None) /\ b_data b' = b_data b ++ wire v /\ b_cursor b' = b_cursor b.
Proof.
  intros H Ht. destruct v as [t x|s|size d]; cbn [add good takes wire] in *.
  - rewrite (bytes_of_be h t x H). eexists. split; [reflexivity|apply data_insert].
  - rewrite (until_nul_id s H). eexists. split; [reflexivity|apply data_insert].
  - destruct H as [Hs Hd]. destruct (Z.ltb_spec size 0); [lia|]. destruct (Z.ltb_spec (Z.of_nat (length d)) size); [lia|]. eexists. split; [reflexivity|].
    rewrite bytes_of_be by (cbn [value_of]; lia). rewrite (proj1 (data_insert _ _ _)), (proj2 (data_insert _ _ _)). rewrite (proj1 (data_insert _ _ _)), (proj2 (data_insert _ _ _)).
    rewrite <- app_assoc. cbn [width]. subst size. rewrite Nat2Z.id, firstn_all. split; reflexivity.
Qed.
Lemma strlen_wire s r : Forall (fun c => is_byte c /\ c <> 0) s -> strlen (s ++ 0 :: r) = Some (length s).
Proof.
  induction 1 as [|c s [_ Hc] _ IH]; cbn [app strlen]; [reflexivity|]. rewrite (proj2 (Z.eqb_neq c 0) Hc), IH. reflexivity.
Qed.
Lemma firstn_here {A} (l r : list A) n : n = length l -> firstn n (l ++ r) = l.
Proof. intros ->. rewrite firstn_app, Nat.sub_diag, firstn_all. cbn. apply app_nil_r. Qed.
Lemma skipn_here {A} (l r : list A) n : n = length l -> skipn n (l ++ r) = r.
Proof. intros ->. rewrite skipn_app, Nat.sub_diag, skipn_all. reflexivity. Qed.
Lemma select_scalar_wire h t x r : value_of t x -> select_scalar h t (be (width t) x ++ r) = Some x.
Proof.
  intros H. unfold select_scalar. rewrite app_length, be_length. destruct (Nat.ltb_spec (width t + length r) (width t)); [lia|].
  rewrite firstn_here by (rewrite be_length; reflexivity). rewrite decode_of_be by exact H. reflexivity.
Qed.
Lemma select_wire h v r : good v -> takes v < 2 ^ 63 -> select h (kind_of v) (wire v ++ r) = Some (v, takes v).
Proof.
  intros H Ht. destruct v as [t x|s|size d]; cbn [select kind_of wire good takes] in *.
  - rewrite select_scalar_wire by exact H. reflexivity.
  - rewrite <- app_assoc. cbn [app]. rewrite (strlen_wire s r H). rewrite firstn_here by reflexivity. reflexivity.
  - destruct H as [Hs Hd]. rewrite <- app_assoc. pose proof (select_scalar_wire h T_long size (d ++ r)) as S. cbn [width value_of] in S. rewrite S by lia. clear S.
    destruct (Z.ltb_spec max_long (8 + size)); [unfold max_long in *; lia|]. rewrite skipn_here by (rewrite be_length; reflexivity).
    rewrite firstn_here by lia. reflexivity.
Qed.

(* the buffer of a sequence *)
Definition is_of (q : sequence) (b : buffer) : Prop :=
  Forall good (added q) /\ total (added q) < 2 ^ 63 /\ (next q <= length (added q))%nat /\ b_data b = wires (added q) /\ b_cursor b = total (firstn (next q) (added q)).
Lemma nth_error_firstn {A} (l : list A) n v : nth_error l n = Some v -> l = firstn n l ++ v :: skipn (S n) l /\ firstn (S n) l = firstn n l ++ [v].
Proof.
  revert n; induction l as [|a l IH]; intros [|n] H; cbn in H; try discriminate.
  - injection H as ->. split; reflexivity.
  - destruct (IH n H) as [E1 E2]. split; cbn [firstn skipn app]; [f_equal; exact E1|]. f_equal. exact E2.
Qed.
Lemma does_sound h q o x q' b : does q o x q' -> is_of q b -> snd (step h o b) = x /\ is_of q' (fst (step h o b)).
Proof.
  intros D (Hg & Ht & Hn & Hd & Hc). destruct D as [q v f Hv Hs|q v E|q|q E]; cbn [step].
  - rewrite total_app in Hs. cbn [total fold_right] in Hs. pose proof (total_pos _ Hg). destruct (add_good h v f b Hv) as (b' & E & E1 & E2); [fold (total (added q)) in Hs; lia|]. rewrite E. cbn [fst snd]. split; [reflexivity|].
    split; [apply Forall_app; split; [exact Hg|constructor; [exact Hv|constructor]]|]. cbn [added next]. split; [rewrite total_app; cbn [total fold_right]; fold (total (added q)) in Hs; lia|].
    split; [rewrite app_length; lia|]. split; [rewrite wires_app; cbn [wires flat_map]; rewrite app_nil_r, E1, Hd; reflexivity|]. rewrite E2, Hc. f_equal. rewrite firstn_app.
    replace (next q - length (added q))%nat with 0%nat by lia. cbn [firstn]. rewrite app_nil_r. reflexivity.
  - destruct (nth_error_firstn _ _ _ E) as [Es Ef]. set (pre := firstn (next q) (added q)) in *. set (post := skipn (S (next q)) (added q)) in *.
    assert (Hg' := Hg). rewrite Es in Hg'. apply Forall_app in Hg'. destruct Hg' as [Gp Gv]. pose proof (Forall_inv Gv) as Hv. pose proof (Forall_inv_tail Gv) as Gq.
    assert (Ht' := Ht). rewrite Es, total_app in Ht'. cbn [total fold_right] in Ht'. fold (total post) in Ht'. pose proof (total_pos _ Gp). pose proof (total_pos _ Gq). pose proof (takes_pos v Hv).
    pose proof (wires_length _ Hg) as L. unfold get, from. rewrite Hc. unfold reserved, utilized. rewrite Hd.
    destruct (Z.ltb_spec (total pre) 0); [lia|]. cbn [orb]. pose proof (total_app pre (v :: post)) as T. rewrite <- Es in T. cbn [total fold_right] in T. fold (total post) in T. fold (total (added q)) in T.
    destruct (Z.ltb_spec (Z.of_nat (length (wires (added q)) + length (b_slack b))) (total pre)); [lia|].
    replace (skipn (Z.to_nat (total pre)) (wires (added q) ++ b_slack b)) with (wire v ++ (wires post ++ b_slack b)).
    2: { rewrite Es at 1. rewrite wires_app. cbn [wires flat_map]. rewrite <- !app_assoc. symmetry. apply skipn_here. pose proof (wires_length _ Gp). lia. }
    rewrite select_wire by (try exact Hv; lia). destruct (Z.ltb_spec max_long (total pre + takes v)); [unfold max_long in *; lia|].
    destruct (Z.ltb_spec (Z.of_nat (length (wires (added q)))) (total pre + takes v)); [lia|]. cbn [fst snd]. split; [reflexivity|].
    split; [exact Hg|]. split; [exact Ht|]. cbn [added next b_data b_cursor]. split; [apply nth_error_Some; congruence|]. split; [reflexivity|]. rewrite Ef, total_app. cbn [total fold_right]. lia.
  - cbn [fst snd]. split; [reflexivity|]. unfold is_of, get_prepare. cbn [added next b_data b_cursor firstn total fold_right]. split; [exact Hg|]. split; [exact Ht|]. split; [lia|]. split; [exact Hd|reflexivity].
  - cbn [fst snd]. split; [reflexivity|]. unfold is_of, add_prepare. cbn [added next b_data b_cursor firstn total fold_right wires flat_map length]. rewrite E in Hc. cbn in Hc. split; [constructor|]. split; [lia|]. split; [lia|]. split; [reflexivity|exact Hc].
Qed.
Lemma history_sound h l xs q q' : history l xs q q' -> forall b, is_of q b -> snd (run h l b) = xs /\ is_of q' (fst (run h l b)).
Proof.
  induction 1 as [q|o l x xs q q1 q2 D H IH]; intros b Hb; cbn [run]; [auto|]. destruct (does_sound h _ _ _ _ b D Hb) as [E1 E2].
  destruct (step h o b) as [b1 x1]. cbn [fst snd] in E1, E2. destruct (IH b1 E2) as [E3 E4]. destruct (run h l b1) as [b2 xs2]. cbn [fst snd] in *. subst. auto.
Qed.
Lemma round_trip_seq h l xs q slack : history l xs (mk_seq [] 0) q -> snd (run h l (allocated slack)) = xs.
Proof.
  intros H. apply (history_sound h l xs _ _ H). unfold is_of, allocated. cbn. repeat split; try constructor; lia.
Qed.

(* past the end *)
Lemma get_cases h k b : let r := get h k b in
  snd r = Undefined \/
  (exists v, snd r = Code OUT_OF_BOUNDS (Some v) /\ fst r = b) \/
  (exists v, snd r = Code SUCCESS (Some v) /\ b_data (fst r) = b_data b /\ b_slack (fst r) = b_slack b /\ b_cursor (fst r) <= utilized b).
Proof.
  cbv zeta. unfold get. destruct (from _ b) as [m|]; [|auto]. destruct (select h k m) as [[v size]|]; [|auto]. destruct (_ <? _); [auto|].
  destruct (Z.ltb_spec (utilized b) (b_cursor b + size)); cbn [fst snd]; [right; left; eauto|]. right. right. exists v. cbn. repeat split; auto.
Qed.
Lemma select_needs h k m v n : select h k m = Some (v, n) -> k <> K_binary -> 0 < n.
Proof.
  destruct k as [t| |]; cbn [select]; intros H Hk.
  - destruct (select_scalar h t m); [|discriminate]. injection H as _ <-. destruct t; cbn; lia.
  - destruct (strlen m); [|discriminate]. injection H as _ <-. lia.
  - congruence.
Qed.
Lemma past_end h k b : k <> K_binary -> utilized b <= b_cursor b -> snd (get h k b) = Undefined \/ exists v, snd (get h k b) = Code OUT_OF_BOUNDS (Some v) /\ fst (get h k b) = b.
Proof.
  intros Hk Hc. unfold get. destruct (from _ b) as [m|]; [|auto]. destruct (select h k m) as [[v n]|] eqn:E; [|auto]. destruct (_ <? _); [auto|].
  pose proof (select_needs _ _ _ _ _ E Hk). destruct (Z.ltb_spec (utilized b) (b_cursor b + n)); [|lia]. right. cbn [fst snd]. eauto.
Qed.
(* a scalar that doesn't fit what is left, but fits the allocation *)
Lemma past_end_scalar h t b : 0 <= b_cursor b -> utilized b < b_cursor b + Z.of_nat (width t) <= reserved b -> reserved b < 2 ^ 63 ->
  exists v, get h (K_scalar t) b = (b, Code OUT_OF_BOUNDS (Some v)).
Proof.
  intros Hc Hn Hr. unfold get, from. destruct (Z.ltb_spec (b_cursor b) 0); [lia|]. destruct (Z.ltb_spec (reserved b) (b_cursor b)); [lia|]. cbn [orb select]. unfold select_scalar.
  rewrite skipn_length, app_length. unfold reserved in *. destruct (Nat.ltb_spec (length (b_data b) + length (b_slack b) - Z.to_nat (b_cursor b)) (width t)); [lia|].
  destruct (Z.ltb_spec max_long (b_cursor b + Z.of_nat (width t))); [unfold max_long in *; lia|]. destruct (Z.ltb_spec (utilized b) (b_cursor b + Z.of_nat (width t))); [|lia]. eauto.
Qed.
