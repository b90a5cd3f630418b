(* What the properties of the transaction manager say, in terms of the events of a run. *)
From Coq Require Import ZArith List Bool.
From Verif Require Import CodesModel FanModel TmModel.
Import ListNotations.
Local Open Scope Z_scope.

Definition kind_eqb (a b : kind) : bool :=
  match a, b with KPrepare, KPrepare | KCommit, KCommit | KRollback, KRollback => true | _, _ => false end.

(* ---------------------------------------------------------------- who is involved *)

(* What a reader of the events knows: the ids of the external resources, and which resource (third) takes part in which branch
   (second) of which transaction (first). *)
Record book := mk_book { k_ext : list (proc * Z); k_id : Z; k_inv : list (Z * Z * Z) }.
Definition book0 : book := mk_book [] 0 [].

Definition enroll (t : trid) (rs : list Z) (b : book) : book :=
  mk_book (k_ext b) (k_id b) (k_inv b ++ map (fun r => (t_g t, t_b t, r)) rs).

Definition note (known : list Z) (b : book) (e : event) : book :=
  match e with
  | Recv (ICommit _ _ t rs) => enroll t rs b
  | Recv (IRollback _ _ t rs) => enroll t rs b
  | Recv (IInvolved _ _ t rs _) => enroll t (filter (fun r => mem r known) rs) b      (* unknown ones are discarded *)
  | Recv (IExtInvolved p t) =>
      match find (fun e => p_ipc (fst e) =? p_ipc p) (k_ext b) with
      | Some (_, i) => enroll t [i] b
      | None => enroll t [k_id b - 1] (mk_book (k_ext b ++ [(p, k_id b - 1)]) (k_id b - 1) (k_inv b))
      end
  | Recv (IExtInstance p) =>
      let i := k_id b - 1 in
      mk_book (if existsb (fun e => p_ipc (fst e) =? p_ipc p) (k_ext b)
               then map (fun e => if p_ipc (fst e) =? p_ipc p then (p, i) else e) (k_ext b)
               else k_ext b ++ [(p, i)]) i (k_inv b)
  | Recv (IExit pid) => mk_book (filter (fun e => negb (p_pid (fst e) =? pid)) (k_ext b)) (k_id b) (k_inv b)
  | Recv (IDestroyed ipc) => mk_book (filter (fun e => negb (p_ipc (fst e) =? ipc)) (k_ext b)) (k_id b) (k_inv b)
  | Act (Removed g) => mk_book (k_ext b) (k_id b) (filter (fun x => negb (fst (fst x) =? g)) (k_inv b))
  | _ => b
  end.
Definition notes (known : list Z) (tr : list event) : book := fold_left (note known) tr book0.

(* resource [r] takes part in branch [b] of transaction [g], since the manager last forgot about [g] *)
Definition takes_part (known : list Z) (tr : list event) (g b r : Z) : Prop := In (g, b, r) (k_inv (notes known tr)).

(* ---------------------------------------------------------------- requests and replies *)

(* the code of the first reply of kind [k] with correlation [c] *)
Fixpoint reply_of (k : kind) (c : Z) (tr : list event) : option xa :=
  match tr with
  | [] => None
  | Recv (IReply k' c' v) :: r => if kind_eqb k' k && (c' =? c) then Some (v_code v) else reply_of k c r
  | _ :: r => reply_of k c r
  end.

(* resource [r] of branch [b] of [g] was asked, and then answered that request with a code that satisfies [ok] *)
Definition answered (k : kind) (tr : list event) (g b r : Z) (ok : xa -> Prop) : Prop :=
  exists before c t fl after code, tr = before ++ Act (Ask k c t r fl) :: after /\ t_g t = g /\ t_b t = b /\
                                   reply_of k c after = Some code /\ ok code.

Definition voted_yes (c : xa) : Prop := c = xa_ok \/ c = read_only.
Definition voted_ok (c : xa) : Prop := c = xa_ok.
Definition voted_read_only (c : xa) : Prop := c = read_only.
Definition commit_done (c : xa) : Prop := c = xa_ok \/ c = read_only \/ c = invalid_xid.

(* resources reply with the transaction and the id they were asked with *)
Definition honest (tr : list event) : Prop :=
  forall k c v t r fl, In (Recv (IReply k c v)) tr -> In (Act (Ask k c t r fl)) tr -> v_trid v = t /\ v_rid v = r.

(* the input that is being handled at the end of [tr] *)
Fixpoint last_input (tr : list event) (cur : option input) : option input :=
  match tr with [] => cur | Recv i :: r => last_input r (Some i) | _ :: r => last_input r cur end.

(* ---------------------------------------------------------------- environments *)

(* an input that says that some resource takes part in [g] *)
Definition involves (g : Z) (i : input) : Prop :=
  match i with
  | ICommit _ _ t rs | IRollback _ _ t rs | IInvolved _ _ t rs _ => t_g t = g /\ rs <> []
  | IExtInvolved _ t => t_g t = g
  | _ => False
  end.

(* no resource joins [g] after a vote on [g] has been asked for *)
Definition nobody_late (g : Z) (tr : list event) : Prop :=
  forall a c t r fl b i, tr = a ++ Act (Ask KPrepare c t r fl) :: b -> t_g t = g -> In (Recv i) b -> ~ involves g i.

(* the other transaction manager asks to commit only what it was told is prepared *)
Definition upstream_obeys (g : Z) (tr : list event) : Prop :=
  forall a p corr t r b x, tr = a ++ Recv (IExtCommit p corr t r) :: b -> t_g t = g ->
    In (Act (Answer x)) a -> a_kind x = ResPrepare -> t_g (a_trid x) = g -> a_code x = Xa xa_ok.

(* the trids of the inputs *)
Definition mentions (i : input) (t : trid) : Prop :=
  match i with
  | ICommit _ _ u _ | IRollback _ _ u _ | IInvolved _ _ u _ _ | IExtInvolved _ u
  | IExtPrepare _ _ u _ | IExtCommit _ _ u _ | IExtRollback _ _ u _ => u = t
  | IInbound _ _ g b own => t = mk_t g b own
  | _ => False
  end.

(* who sent a request *)
Definition requester (i : input) : option proc :=
  match i with
  | ICommit p _ _ _ | IRollback p _ _ _ | IExtPrepare p _ _ _ | IExtCommit p _ _ _ | IExtRollback p _ _ _ => Some p
  | _ => None
  end.

(* nobody asks the manager directly to roll [g] back, no owner of [g] dies, and the manager does not send requests to itself *)
Definition undisturbed (g : Z) (tr : list event) : Prop :=
  (forall p corr t rs, In (Recv (IRollback p corr t rs)) tr -> t_g t <> g) /\
  (forall pid i t, In (Recv (IExit pid)) tr -> In (Recv i) tr -> mentions i t -> t_g t = g -> t_own t <> pid) /\
  (forall i p, In (Recv i) tr -> requester i = Some p -> p <> self).

(* ---------------------------------------------------------------- requests to the manager, and its final replies *)

Definition request_of (i : input) : option (rkind * Z * Z) :=      (* kind of reply, correlation, transaction *)
  match i with
  | ICommit _ corr t _ => Some (UserCommit, corr, t_g t)
  | IRollback _ corr t _ => Some (UserRollback, corr, t_g t)
  | IExtPrepare _ corr t _ => Some (ResPrepare, corr, t_g t)
  | IExtCommit _ corr t _ => Some (ResCommit, corr, t_g t)
  | IExtRollback _ corr t _ => Some (ResRollback, corr, t_g t)
  | _ => None
  end.
Definition asks_for (corr : Z) (e : event) : bool :=
  match e with Recv i => match request_of i with Some (_, c, _) => c =? corr | None => false end | _ => false end.

(* all replies but "prepared and logged", which a final reply follows *)
Definition is_final (a : answer) : bool :=
  match a_kind a, a_stage a with UserCommit, Some Prepare => false | _, _ => true end.
Definition final_for (corr : Z) (e : event) : bool :=
  match e with Act (Answer a) => (a_corr a =? corr) && is_final a | _ => false end.

Definition count {A} (p : A -> bool) (l : list A) : nat := length (filter p l).


(* every request to a resource was answered, or given up, afterwards *)
Definition settled (tr : list event) : Prop :=
  forall a k c t r fl b, tr = a ++ Act (Ask k c t r fl) :: b -> reply_of k c b <> None \/ In (Act (GaveUp k r)) b.

(* ---------------------------------------------------------------- the record of the vote *)

(* answers that say: all voted yes, the result is logged *)
Definition prepared (a : answer) : bool :=
  match a_kind a, a_stage a, a_code a with
  | UserCommit, Some Prepare, _ => true
  | ResPrepare, _, Xa xa_ok => true
  | _, _, _ => false
  end.

(* the record of [g] was made, and all of it was put on disk, unless [g] has been forgotten since *)
Definition recorded (q : list event) (g : Z) : Prop :=
  exists q1 rs q2, q = q1 ++ Act (Logged g rs) :: q2 /\
    (In (Act (Removed g)) q2 \/ exists b1 disk b2, q2 = b1 ++ Act (Persisted disk) :: b2 /\ incl rs disk).

(* ---------------------------------------------------------------- one transaction *)

(* what has happened since the manager last forgot about [g] *)
Definition is_removed (g : Z) (e : event) : bool := match e with Act (Removed h) => h =? g | _ => false end.
Definition since_forgotten (g : Z) (tr : list event) : list event :=
  fold_left (fun acc e => if is_removed g e then [] else acc ++ [e]) tr [].
(* a request of kind [k] for [g] *)
Definition asks (k : kind) (g : Z) (e : event) : Prop := exists c t r fl, e = Act (Ask k c t r fl) /\ t_g t = g.
