(* The discovery: what is waited for has been asked, and what isn't has been replied to. *)
From Coq Require Import ZArith List Bool Lia.
From Verif Require Import DscModel DscSpec DscProofs DscHold DscEnv.
Import ListNotations.
Local Open Scope Z_scope.

Lemma open_snoc e h i ev : open e (h ++ [(i, ev)]) <-> (In e ev /\ asked_of e <> None) \/ (open e h /\ ends i e = false).
Proof.
  split.
  - intro O. inversion O as [h' i' ev' A B E|h' i' ev' A B E]; apply snoc_inj in E as [-> E]; injection E as -> ->; auto.
  - intros [[A B]|[A B]]; [now apply open_now|now apply open_since].
Qed.
Lemma arrived_mono r h x : arrived r h -> arrived r (h ++ [x]).
Proof. unfold arrived. destruct x as [i ev]. rewrite inputs_snoc, !in_snoc. tauto. Qed.
Lemma told_here_mono n x h y : told_here n x h -> told_here n x (h ++ [y]).
Proof. intros (k & c & I & J). destruct y as [i ev]. exists k, c. rewrite inputs_snoc, in_snoc. auto. Qed.
Lemma told_there_mono n x h y : told_there n x h -> told_there n x (h ++ [y]).
Proof. intros (h1 & k & c & ev & h2 & o & -> & A & B). exists h1, k, c, ev, (h2 ++ [y]), o. rewrite <- app_assoc. auto. Qed.
Lemma not_here_mono r n h x : not_here r n h -> not_here r n (h ++ [x]).
Proof.
  intros (h1 & ev & h2 & E & A). exists h1, ev, (h2 ++ [x]). split; [rewrite E, <- app_assoc; auto|]. intros p P L. destruct (A p P L) as (k & I & F). exists k. split; [auto|]. now apply refused_since.
Qed.
Lemma prefix_mono {A} (h h1 h2 : list A) x : h = h1 ++ h2 -> h ++ [x] = h1 ++ (h2 ++ [x]).
Proof. intros ->. now rewrite app_assoc. Qed.
Lemma wanted_as_mono o h x : wanted_as o h -> wanted_as o (h ++ [x]).
Proof. intros (r & n & h1 & h2 & A & B & C & D & E). exists r, n, h1, (h2 ++ [x]). split; [now apply arrived_mono|]. split; [auto|]. split; [auto|]. split; [now apply prefix_mono|auto]. Qed.

(* ---- what is held ---- *)
Definition lpt (h : history) (r : req) (ws : list (Z * proc)) (have : content) : Prop :=
  exists h1 ev h2, h = h1 ++ (Request r, ev) :: h2 /\ forall p, provides ALookup p (h1 ++ [(Request r, ev)]) -> ~ lost (p_ipc p) h1 ->
    exists k, In (AskLook p k (negb (r_extend r)) (r_want r)) ev /\ forall n, ~ In n (map fst have) -> In (k, p) ws \/ refused says_name (AskLook p k (negb (r_extend r)) (r_want r)) n h.
Definition kpt (h : history) (i : input) (ws : list (Z * proc)) (have : wanted) : Prop :=
  exists h1 ev h2, h = h1 ++ (i, ev) :: h2 /\ forall p, provides AKnown p (h1 ++ [(i, ev)]) -> ~ lost (p_ipc p) h1 ->
    exists k, In (AskKnown p k) ev /\ forall n, ~ In n have -> In (k, p) ws \/ refused says_name (AskKnown p k) n h.
Definition dpt (h : history) (r : req) (n : name) (ws : list (Z * proc * bool)) : Prop :=
  exists h1 i ev h2, h = h1 ++ (i, ev) :: h2 /\ arrived r (h1 ++ [(i, ev)]) /\ forall p, provides ADiscover p (h1 ++ [(i, ev)]) -> ~ lost (p_ipc p) h1 ->
    exists k w o, In (Ask p k w) ev /\ official (configured h1) n o /\ In o w /\ ((In (k, p, false) ws /\ open (Ask p k w) h) \/ refused hears (Ask p k w) n h).
Definition rpt (h : history) (p k : Z) (ws : list (Z * proc * bool)) (have : content) : Prop :=
  exists h1 i ev h2 l w, h = h1 ++ (i, ev) :: h2 /\ fetched (Rediscover p k) l (h1 ++ [(i, ev)]) /\ (forall n, In n l -> exists o, official (configured h1) n o /\ In o w) /\
    forall q, provides ADiscover q (h1 ++ [(i, ev)]) -> ~ lost (p_ipc q) h1 -> exists k', In (Ask q k' w) ev /\ forall n, ~ In n (map fst have) -> (In (k', q, false) ws /\ open (Ask q k' w) h) \/ refused says_name (Ask q k' w) n h.
Definition okreq (h : history) (have : content) (ws : list (Z * proc * bool)) (r : req) : Prop :=
  arrived r h /\ far r /\ forall n, In n (r_want r) -> ~ In n (map fst have) -> (r_api r = false -> not_here r n h) /\ dpt h r n ws.
Definition told (h : history) (have : content) : Prop := forall n x, In (n, x) have -> told_here n x h \/ told_there n x h.
Definition said (h : history) (have : content) : Prop := forall n x, In (n, x) have -> exists k c, In (DiscReply k c) (inputs h) /\ In (n, x) c.
Definition okjob (h : history) (d : disc) : Prop :=
  match d_job d with JAnswer l => told h (d_have d) /\ forall r, In r l -> okreq h (d_have d) (d_wait d) r | JRedisc p k => said h (d_have d) /\ rpt h p k (d_wait d) (d_have d) end.
Definition okd (h : history) (d : disc) : Prop :=
  (forall k p, In (k, p, false) (d_wait d) -> exists w, open (Ask p k w) h) /\ (forall o, In o (d_asked d) -> wanted_as o h) /\ okjob h d.
Definition okl (h : history) (l : look) : Prop :=
  (forall k p, In (k, p) (l_wait l) -> open (AskLook p k (negb (r_extend (l_req l))) (r_want (l_req l))) h) /\ r_api (l_req l) = false /\ lpt h (l_req l) (l_wait l) (l_have l) /\ (forall n x, In (n, x) (l_have l) -> told_here n x h).
Definition updates (h : history) (direct : list (Z * wanted)) (implicit : list (Z * list Z)) : Prop :=
  (forall p w, In (p, w) direct -> In (DirectUpdate p w) (inputs h)) /\ (forall p ds, In (p, ds) implicit -> In (ImplicitUpdate p ds) (inputs h)).
Definition okgoal (h : history) (x : known) : Prop :=
  match k_goal x with GRedisc p k => kpt h (Rediscover p k) (k_wait x) (k_have x) | GExplore direct implicit => updates h direct implicit /\ kpt h Timeout (k_wait x) (k_have x) end.
Definition okk (h : history) (x : known) : Prop :=
  (forall k p, In (k, p) (k_wait x) -> open (AskKnown p k) h) /\ (forall n, In n (k_have x) -> exists k w, In (KnownReply k w) (inputs h) /\ In n w) /\ okgoal h x.
Definition okacc (h : history) (a : acc) : Prop :=
  (forall r, In r (a_api a) -> arrived r h /\ r_api r = true) /\
  (forall r, In r (a_disc a) -> arrived r h /\ r_api r = false /\ r_extend r = true /\ forall n, ~ In n (map fst (a_have a)) -> not_here r n h) /\
  (forall n x, In (n, x) (a_have a) -> told_here n x h) /\ updates h (a_direct a) (a_implicit a).
Definition dkeys (l : list disc) : list Z := flat_map (fun d => map (fun x => fst (fst x)) (d_wait d)) l.
Definition lkeys (l : list look) : list Z := flat_map (fun d => map fst (l_wait d)) l.
Definition kkeys (l : list known) : list Z := flat_map (fun d => map fst (k_wait d)) l.
Record dyn (h : history) (s : state) : Prop := {
  y_disc : forall d, In d (s_disc s) -> all_failed (d_wait d) = false /\ okd h d;
  y_look : forall l, In l (s_look s) -> l_wait l <> [] /\ okl h l;
  y_known : forall x, In x (s_known s) -> k_wait x <> [] /\ okk h x;
  y_acc : okacc h (s_acc s);
  y_ndd : NoDup (dkeys (s_disc s));
  y_ndl : NoDup (lkeys (s_look s));
  y_ndk : NoDup (kkeys (s_known s));
  y_fresh : forall k, In k (dkeys (s_disc s)) \/ In k (lkeys (s_look s)) \/ In k (kkeys (s_known s)) -> k < s_next s
}.

(* ---- what is claimed of what is sent ---- *)
Definition fine (h : history) (i : input) (H : history) (e : effect) : Prop :=
  match e with
  | Answer a p k c => exists r, arrived r H /\ r_api r = a /\ r_ipc r = p /\ r_corr r = k /\
      (forall n x, In (n, x) c -> told_here n x H \/ (far r /\ told_there n x H)) /\ (far r -> forall n, In n (map fst c) -> In n (r_want r)) /\
      forall n, In n (r_want r) -> ~ In n (map fst c) -> down h \/ ((r_api r = false -> not_here r n H) /\ (far r -> not_there r n H))
  | Rediscovered p k c => rediscovered p k c H /\ said H c
  | Ask p k w => provides ADiscover p H /\ ~ lost (p_ipc p) H /\ forall o, In o w -> wanted_as o H \/ known_as o H
  | AskLook p k b w => provides ALookup p H /\ ~ lost (p_ipc p) H /\ exists r, i = Request r /\ b = negb (r_extend r) /\ w = r_want r
  | AskKnown p k => provides AKnown p H /\ ~ lost (p_ipc p) H /\ (i = Timeout \/ exists q k, i = Rediscover q k)
  | Explore p w => ~ lost p H /\ (forall o, In o w -> wanted_as o H \/ known_as o H \/ updated_as o H) /\ exists l, fetched Timeout l H /\ forall n, In n l -> exists o, official (configured h) n o /\ In o w
  | Implicit p ds => (exists q, p_ipc q = p /\ provides ATopology q H) /\ ~ lost p H /\ In (self H) ds /\ forall d, In d ds -> d = self H \/ exists p' ds', In (ImplicitUpdate p' ds') (inputs H) /\ In d ds'
  | _ => True
  end.
