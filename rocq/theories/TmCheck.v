(* Boolean checks of the assumptions on the environment, used only for the concrete runs in TmProps.v *)
From Coq Require Import ZArith List Bool Lia.
From Verif Require Import CodesModel FanModel TmModel TmSpec.
Import ListNotations.
Local Open Scope Z_scope.

Definition trid_eqb (a b : trid) : bool := (t_g a =? t_g b) && (t_b a =? t_b b) && (t_own a =? t_own b).
Lemma trid_eqb_eq a b : trid_eqb a b = true -> a = b.
Proof. unfold trid_eqb. rewrite !andb_true_iff, !Z.eqb_eq. destruct a, b; cbn. intros [[-> ->] ->]. reflexivity. Qed.
Lemma kind_eqb_refl k : kind_eqb k k = true. Proof. destruct k; reflexivity. Qed.

(* every element, with what is before and after it *)
Fixpoint every (p : list event -> event -> list event -> bool) (a l : list event) : bool :=
  match l with [] => true | e :: r => p a e r && every p (a ++ [e]) r end.
Lemma every_spec p l : forall a0, every p a0 l = true -> forall a e b, l = a ++ e :: b -> p (a0 ++ a) e b = true.
Proof.
  induction l as [|x l IH]; intros a0 H a e b E; [destruct a; discriminate|].
  cbn in H. apply andb_true_iff in H. destruct H as [H1 H2]. destruct a as [|y a]; cbn in E; injection E as -> E.
  - subst. rewrite app_nil_r. exact H1.
  - specialize (IH _ H2 a e b E). rewrite <- app_assoc in IH. exact IH.
Qed.

Definition honestb (tr : list event) : bool :=
  forallb (fun e => match e with
    | Recv (IReply k c v) => forallb (fun e' => match e' with
        | Act (Ask k' c' t r _) => negb (kind_eqb k k' && (c =? c')) || (trid_eqb (v_trid v) t && (v_rid v =? r)) | _ => true end) tr
    | _ => true end) tr.
Lemma honestb_ok tr : honestb tr = true -> honest tr.
Proof.
  intros H k c v t r fl I1 I2. unfold honestb in H. rewrite forallb_forall in H. specialize (H _ I1). cbn beta iota in H.
  rewrite forallb_forall in H. specialize (H _ I2). cbn beta iota in H. rewrite kind_eqb_refl, Z.eqb_refl in H. cbn in H.
  apply andb_true_iff in H. destruct H as [H1 H2]. split; [exact (trid_eqb_eq _ _ H1)|exact (proj1 (Z.eqb_eq _ _) H2)].
Qed.

Definition involvesb (g : Z) (i : input) : bool :=
  match i with
  | ICommit _ _ t rs | IRollback _ _ t rs | IInvolved _ _ t rs _ => (t_g t =? g) && match rs with [] => false | _ => true end
  | IExtInvolved _ t => t_g t =? g
  | _ => false
  end.
Lemma involvesb_ok g i : involves g i -> involvesb g i = true.
Proof. destruct i; cbn; try tauto; try (intros <-; apply Z.eqb_refl); (intros [<- N]; rewrite Z.eqb_refl; destruct involved; [destruct (N eq_refl)|reflexivity]). Qed.

Definition nobody_lateb (g : Z) (tr : list event) : bool :=
  every (fun _ e b => match e with
    | Act (Ask KPrepare _ t _ _) => negb (t_g t =? g) || forallb (fun e' => match e' with Recv i => negb (involvesb g i) | _ => true end) b
    | _ => true end) [] tr.
Lemma nobody_lateb_ok g tr : nobody_lateb g tr = true -> nobody_late g tr.
Proof.
  intros H a c t r fl b i E G I V. pose proof (every_spec _ _ _ H _ _ _ E) as X. cbn beta iota in X. rewrite G, Z.eqb_refl in X. cbn in X.
  rewrite forallb_forall in X. specialize (X _ I). cbn in X. rewrite (involvesb_ok g i V) in X. discriminate X.
Qed.

Definition obeysb (g : Z) (tr : list event) : bool :=
  every (fun a e _ => match e with
    | Recv (IExtCommit _ _ t _) => negb (t_g t =? g) || forallb (fun e' => match e' with
        | Act (Answer x) => match a_kind x with ResPrepare => negb (t_g (a_trid x) =? g) || match a_code x with Xa xa_ok => true | _ => false end | _ => true end
        | _ => true end) a
    | _ => true end) [] tr.
Lemma obeysb_ok g tr : obeysb g tr = true -> upstream_obeys g tr.
Proof.
  intros H a p corr t r b x E G I K GX. pose proof (every_spec _ _ _ H _ _ _ E) as X. cbn beta iota in X. rewrite G, Z.eqb_refl in X. cbn in X.
  rewrite forallb_forall in X. specialize (X _ I). cbn beta iota in X. rewrite K, GX, Z.eqb_refl in X. cbn in X.
  destruct (a_code x) as [?|c]; [discriminate|]. destruct c; discriminate X || reflexivity.
Qed.

Definition mentioned (i : input) : option trid :=
  match i with
  | ICommit _ _ u _ | IRollback _ _ u _ | IInvolved _ _ u _ _ | IExtInvolved _ u
  | IExtPrepare _ _ u _ | IExtCommit _ _ u _ | IExtRollback _ _ u _ => Some u
  | IInbound _ _ g b own => Some (mk_t g b own)
  | _ => None
  end.
Lemma mentioned_ok i t : mentions i t -> mentioned i = Some t.
Proof. destruct i; cbn; intros H; try contradiction; subst; reflexivity. Qed.

Definition undisturbedb (tr : list event) : bool :=
  forallb (fun e => match e with
    | Recv i => match i with IRollback _ _ _ _ => false | _ => true end &&
        match i with
        | IExit pid => forallb (fun e' => match e' with Recv j => match mentioned j with Some t => negb (t_own t =? pid) | None => true end | _ => true end) tr
        | _ => true end &&
        match requester i with Some p => negb (same_proc p self) | None => true end
    | _ => true end) tr.
Lemma undisturbedb_ok tr : undisturbedb tr = true -> forall g, undisturbed g tr.
Proof.
  intros H g. unfold undisturbedb in H. rewrite forallb_forall in H. split; [|split].
  - intros p corr t rs I. specialize (H _ I). discriminate H.
  - intros pid i t I J M _ E. specialize (H _ I). cbn beta iota in H. rewrite !andb_true_iff in H. destruct H as [[_ H] _].
    rewrite forallb_forall in H. specialize (H _ J). cbn beta iota in H. rewrite (mentioned_ok i t M), E, Z.eqb_refl in H. discriminate H.
  - intros i p I R E. specialize (H _ I). cbn beta iota in H. rewrite !andb_true_iff in H. destruct H as [_ H]. rewrite R, E in H. discriminate H.
Qed.

Definition settledb (tr : list event) : bool :=
  every (fun _ e b => match e with
    | Act (Ask k c _ r _) => match reply_of k c b with Some _ => true | None => false end ||
        existsb (fun e' => match e' with Act (GaveUp k' r') => kind_eqb k k' && (r =? r') | _ => false end) b
    | _ => true end) [] tr.
Lemma settledb_ok tr : settledb tr = true -> settled tr.
Proof.
  intros H a k c t r fl b E. pose proof (every_spec _ _ _ H _ _ _ E) as X. cbn beta iota in X. apply orb_true_iff in X. destruct X as [X|X].
  - left. destruct (reply_of k c b); [discriminate|discriminate X].
  - right. apply existsb_exists in X. destruct X as (e'&I&X). destruct e' as [?|ac]; [discriminate|]. destruct ac; try discriminate X.
    apply andb_true_iff in X. destruct X as [K R]. apply Z.eqb_eq in R. subst.
    assert (k = k0) by (destruct k, k0; cbn in K; congruence). subst. exact I.
Qed.

(* nobody is asked, with a kind in [ks], for [g] *)
Definition not_askedb (k : kind) (g : Z) (tr : list event) : bool :=
  forallb (fun e => match e with Act (Ask k' _ t _ _) => negb (kind_eqb k' k && (t_g t =? g)) | _ => true end) tr.
Lemma not_askedb_ok k g tr : not_askedb k g tr = true -> forall e, In e tr -> ~ asks k g e.
Proof.
  intros H e I (c&t&r&fl&->&G). unfold not_askedb in H. rewrite forallb_forall in H. specialize (H _ I). cbn beta iota in H.
  rewrite kind_eqb_refl, G, Z.eqb_refl in H. discriminate H.
Qed.

Definition states_of (known : list Z) (is : list input) : tm := match run is (init known) with Some (s, _) => s | None => init known end.
Definition events_of (known : list Z) (is : list input) : list event := match run is (init known) with Some (_, tr) => tr | None => [] end.
Definition goesb (known : list Z) (is : list input) : bool := match run is (init known) with Some _ => true | None => false end.
Lemma goesb_ok known is : goesb known is = true -> run is (init known) = Some (states_of known is, events_of known is).
Proof. unfold goesb, states_of, events_of. destruct (run is (init known)) as [[s tr]|]; [reflexivity|discriminate]. Qed.

(* is the event in the list: a syntactic check by computation is enough, the lists are literals *)
Ltac isin := vm_compute; repeat (first [left; reflexivity | right]).
