(** Queries over documents: filters (C17), merging results (C18), unique ids (C24), the meaning of comparisons (C60),
    deleting (C61). *)
From Verif Require Import Bytes Outcome ByteOrd IndexModel IndexSpec QueryModel QuerySpec QueryProofs.
From Verif Require TapeModel.
From Coq Require Import Sorting.Permutation Sorting.Sorted.
Local Open Scope Z_scope.

(** Some documents for the examples. *)
Definition int (z : Z) : dval := DInt TapeModel.I64 z.
Definition small (z : Z) : dval := DInt TapeModel.I8 z.
Definition D (i : N) (fs : list (list byte * dval)) : doc := {| did := i; fields := fs |}.
Definition people : list doc :=
  [ D 1 [(str "name", DStr (str "ann")); (str "age", int 30)];
    D 2 [(str "name", DStr (str "bob")); (str "age", int 17)];
    D 3 [(str "name", DStr (str "cid")); (str "age", int 45)];
    D 4 [(str "name", DStr (str "dan")); (str "age", int 18)] ].
Definition adults : expr := And [Param CGte (str "age") 1; Not [Param CEq (str "name") 2]].
Definition args : list (N * dval) := [(1%N, int 18); (2%N, DStr (str "ann"))].

(** C17: when the predicate has an answer on every document, a scan returns the documents that satisfy it, in their
    order, up to the limit; the same over the result of another operator. *)
Theorem C17_filter : forall p f limit ds, (forall d, In d ds -> p d = Ok (f d)) ->
  (exists o, full_scan p limit ds = Ok o /\ answer o = limited limit (filter f ds)) /\
  (exists o, operator_match p limit (Some ds) = Ok o /\ answer o = limited limit (filter f ds)).
Proof. intros p f limit ds H. split; exact (full_scan_filter p f limit ds H). Qed.
Print Assumptions C17_filter.

(** Without a predicate the scan returns the first documents. *)
Theorem C17_transfer : forall limit ds, exists o, transfer_scan limit ds = Ok o /\ answer o = limited limit ds.
Proof.
  intros limit ds. destruct (full_scan_filter (fun _ => Ok true) (fun _ => true) limit ds) as (o & E & A); [reflexivity|].
  exists o. split; [exact E|]. rewrite A. f_equal. clear. induction ds as [|d ds IH]; cbn; congruence.
Qed.
Print Assumptions C17_transfer.

(** A scan fails only when the predicate fails on one of the documents. *)
Theorem C17_errors : forall p limit ds e, full_scan p limit ds = Err e -> exists d, In d ds /\ p d = Err e.
Proof. exact full_scan_error. Qed.
Print Assumptions C17_errors.

Example C17_filter_example :
  (forall d, In d people -> exists b, eval adults args d None = Ok b) /\
  map (fun l => match full_scan (fun d => eval adults args d None) l people with Ok o => ids (answer o) | Err _ => [] end)
    [-1; 0; 1; 5] = [[3; 4]%N; []; [3%N]; [3; 4]%N].
Proof. split; [|reflexivity]. cbn. intros d [<-|[<-|[<-|[<-|[]]]]]; eexists; reflexivity. Qed.

(** C60: a predicate holds exactly when the comparisons in it hold between the values of the fields.  Proved for
    comparisons of two present values of one kind, integers in the range of the type of the field.  Missing: the cases
    refuted below. *)
Theorem C60_meaning_partial : forall e ps l r, regular e ps l r = true ->
  exists b, eval e ps l r = Ok b /\ (b = true <-> sat e ps l r).
Proof. exact eval_sat. Qed.
Print Assumptions C60_meaning_partial.

Example C60_meaning_example :
  forallb (fun d => regular adults args d None) people = true /\
  map (fun d => eval adults args d None) people = [Ok false; Ok false; Ok true; Ok true] /\
  regular (Keys CLt (str "age") (str "limit")) [] (D 1 [(str "age", int 3)]) (Some (D 2 [(str "limit", small 4)])) = true /\
  eval (Keys CLt (str "age") (str "limit")) [] (D 1 [(str "age", int 3)]) (Some (D 2 [(str "limit", small 4)])) = Ok true.
Proof. repeat split; vm_compute; reflexivity. Qed.

(** A string is "equal" to every number. *)
Theorem C60_kinds_refuted : exists c l k p v ps, lookup N.eqb p ps = Some v /\
  eval (Param c k p) ps l None = Ok true /\ ~ sat (Param c k p) ps l None.
Proof.
  exists CEq, (D 1 [(str "a", DStr (str "x"))]), (str "a"), 1%N, (int 5), [(1%N, int 5)].
  split; [reflexivity|]. split; [reflexivity|]. cbn. intros (x & v & [= <-] & [= <-] & H). discriminate.
Qed.
Print Assumptions C60_kinds_refuted.

(** A document without the field is found by [>]. *)
Theorem C60_missing_refuted : exists l k p v ps, lookup N.eqb p ps = Some v /\ field l k = None /\
  eval (Param CGt k p) ps l None = Ok true /\ ~ sat (Param CGt k p) ps l None.
Proof.
  exists (D 1 []), (str "a"), 1%N, (int 5), [(1%N, int 5)].
  split; [reflexivity|]. split; [reflexivity|]. split; [reflexivity|]. cbn. intros (x & v & [=] & _).
Qed.
Print Assumptions C60_missing_refuted.

(** An object or array is "equal" to every value. *)
Theorem C60_nested_refuted : exists l k p v ps, lookup N.eqb p ps = Some v /\ field l k = Some DNest /\
  eval (Param CEq k p) ps l None = Ok true /\ ~ sat (Param CEq k p) ps l None.
Proof.
  exists (D 1 [(str "a", DNest)]), (str "a"), 1%N, (int 5), [(1%N, int 5)].
  split; [reflexivity|]. split; [reflexivity|]. split; [reflexivity|]. cbn. intros (x & v & [= <-] & [= <-] & H). discriminate.
Qed.
Print Assumptions C60_nested_refuted.

(** A number outside of the range of the type of one stored value makes the whole query fail ... *)
Theorem C60_range_refuted : exists e ps ds d, In d ds /\ sat e ps d None /\ full_scan (fun d => eval e ps d None) (-1) ds = Err Throw.
Proof.
  exists (Param CLt (str "a") 1), [(1%N, int 1000)], [D 1 [(str "a", int 5)]; D 2 [(str "a", small 5)]], (D 1 [(str "a", int 5)]).
  split; [left; reflexivity|]. split; [|vm_compute; reflexivity].
  exists (int 5), (int 1000). repeat split; reflexivity.
Qed.
Print Assumptions C60_range_refuted.

(** ... and for some pairs of types it wraps around: 100 > 200. *)
Theorem C60_wrap_refuted : exists l k p ps, eval (Param CGt k p) ps l None = Ok true /\ ~ sat (Param CGt k p) ps l None.
Proof.
  exists (D 1 [(str "a", small 100)]), (str "a"), 1%N, [(1%N, DInt TapeModel.U8 200)].
  split; [vm_compute; reflexivity|]. cbn. intros (x & v & [= <-] & [= <-] & H). discriminate.
Qed.
Print Assumptions C60_wrap_refuted.

(** C18: and, or, not of results are intersection, union and complement by id; documents of the left win in a union;
    nothing is repeated; a limit takes the first ones. *)
Theorem C18_and : forall left right, let out l := answer (operator_and l (Some left) (Some right)) in
  (forall d, In d (out (-1)) <-> In d left /\ In (did d) (ids right)) /\
  (NoDup (ids left) -> NoDup (ids (out (-1)))) /\
  (forall limit, out limit = limited limit (out (-1))).
Proof.
  intros left right. cbn zeta. split; [apply and_inter|]. split; [apply and_NoDup|]. intros limit. apply and_limited.
Qed.
Print Assumptions C18_and.

Theorem C18_or : forall left right, let out l := answer (operator_or l (Some left) (Some right)) in
  (forall d, In d left -> In d (out (-1))) /\
  (forall d, In d (out (-1)) -> In d left \/ In d right) /\
  (forall i, In i (ids (out (-1))) <-> In i (ids left) \/ In i (ids right)) /\
  (NoDup (ids left) -> NoDup (ids (out (-1)))) /\
  (forall limit, out limit = limited limit (out (-1))).
Proof.
  intros left right. cbn zeta. destruct (or_spec left right) as (A & B & C & N).
  split; [exact A|]. split; [exact B|]. split; [exact C|]. split; [exact N|]. intros limit. apply or_limited.
Qed.
Print Assumptions C18_or.

Theorem C18_not : forall stored left, let out l := answer (operator_not l stored (Some left)) in
  (forall d, In d (out (-1)) <-> In d stored /\ ~ In (did d) (ids left)) /\
  (NoDup (ids stored) -> NoDup (ids (out (-1)))) /\
  (forall limit, out limit = limited limit (out (-1))).
Proof.
  intros stored left. cbn zeta. split; [apply not_compl|]. split; [apply not_NoDup|]. intros limit. apply not_limited.
Qed.
Print Assumptions C18_not.

Example C18_example :
  let a := firstn 3 people in let b := skipn 1 people in
  ids (answer (operator_and (-1) (Some a) (Some b))) = [2; 3]%N /\
  ids (answer (operator_or (-1) (Some b) (Some a))) = [2; 3; 4; 1]%N /\
  ids (answer (operator_or 2 (Some b) (Some a))) = [2; 3]%N /\
  ids (answer (operator_not (-1) people (Some a))) = [4%N].
Proof. repeat split. Qed.

(** C24: whatever is inserted and deleted, the ids in a collection stay distinct. *)
Inductive op := Ins (batch : list doc) | Del (found : list doc).
Definition apply (s : list doc) (o : op) : list doc :=
  match o with Ins b => fst (insert s b) | Del f => fst (delete s f) end.
Theorem C24_unique : forall ops, NoDup (ids (fold_left apply ops [])).
Proof.
  intros ops. apply well_stored_NoDup.
  assert (H : forall s, well_stored s -> well_stored (fold_left apply ops s)).
  { induction ops as [|o ops IH]; cbn; intros s W; [exact W|]. apply IH. destruct o; cbn.
    - apply insert_well, W.
    - apply (delete_spec s found), W. }
  apply H. constructor.
Qed.
Print Assumptions C24_unique.

(** A batch with an id that is stored is rejected as a whole. *)
Theorem C24_rejected : forall stored batch d, In d batch -> In (did d) (ids stored) -> insert stored batch = (stored, []).
Proof. exact insert_rejected. Qed.
Print Assumptions C24_rejected.

(** A batch of new documents is stored and reported.  Proved for batches without repeated ids.  Missing: the others,
    refuted below. *)
Theorem C24_accepted_partial : forall stored batch, well_stored stored -> NoDup (ids batch) ->
  (forall d, In d batch -> ~ In (did d) (ids stored)) ->
  snd (insert stored batch) = ids batch /\ forall d, In d (fst (insert stored batch)) <-> In d stored \/ In d batch.
Proof. exact insert_accepted. Qed.
Print Assumptions C24_accepted_partial.

Example C24_example :
  let s := firstn 2 people in let b := [D 9 []; D 5 [(str "name", DNull)]] in
  ids (fst (insert s b)) = [1; 2; 5; 9]%N /\ snd (insert s b) = [9; 5]%N /\ insert s (b ++ [D 2 []]) = (s, []).
Proof. repeat split. Qed.

(** Two documents of one batch with one id: both are reported, the first is lost. *)
Theorem C24_repeat_refuted : exists batch d, In d batch /\ ~ In d (fst (insert [] batch)) /\ snd (insert [] batch) = ids batch.
Proof.
  exists [D 1 [(str "a", int 1)]; D 1 [(str "a", int 2)]], (D 1 [(str "a", int 1)]).
  split; [left; reflexivity|]. split; [|reflexivity]. cbn. intros [H|[]]. discriminate.
Qed.
Print Assumptions C24_repeat_refuted.

(** C61: a delete removes the documents found and no others, and reports each of them once. *)
Theorem C61_delete : forall stored found,
  (forall d, In d (fst (delete stored found)) <-> In d stored /\ ~ In (did d) (ids found)) /\
  NoDup (snd (delete stored found)) /\
  (forall i, In i (snd (delete stored found)) <-> In i (ids found) /\ In i (ids stored)).
Proof. intros stored found. destruct (delete_spec stored found) as (A & B & C & _). auto. Qed.
Print Assumptions C61_delete.

(** With the scan below it: the documents that satisfy the predicate go, the others stay in their order. *)
Theorem C61_where : forall p f stored, well_stored stored -> (forall d, In d stored -> p d = Ok (f d)) ->
  exists found, full_scan p (-1) stored = Ok (Some found) /\
    fst (delete stored found) = filter (fun d => negb (f d)) stored /\
    Permutation (snd (delete stored found)) (ids (filter f stored)).
Proof. exact delete_where. Qed.
Print Assumptions C61_where.

(** With a second source: those that satisfy the predicate with one of its documents. *)
Theorem C61_using : forall p g stored left right, (forall l r, In l left -> In r right -> p l r = Ok (g l r)) ->
  delete_join p right left (stored, []) = Ok (delete stored (filter (fun l => existsb (g l) right) left)).
Proof. intros p g stored left right H. exact (delete_join_spec p g right left H (stored, [])). Qed.
Print Assumptions C61_using.

Example C61_example :
  well_stored people /\
  ids (fst (delete people [D 3 []; D 1 []; D 3 []; D 8 []])) = [2; 4]%N /\
  snd (delete people [D 3 []; D 1 []; D 3 []; D 8 []]) = [3; 1]%N /\
  match delete_join (fun l r => eval (Keys CEq (str "name") (str "gone")) [] l (Some r))
          [D 7 [(str "gone", DStr (str "dan"))]; D 8 [(str "gone", DStr (str "ann"))]] people (people, []) with
  | Ok (s, r) => ids s = [2; 3]%N /\ r = [1; 4]%N
  | Err _ => False
  end.
Proof. split; [repeat constructor|]. repeat split. Qed.
