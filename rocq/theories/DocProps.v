(** Changing documents (C14, C15, C16). *)
From Verif Require Import Bytes Outcome ByteOrd IndexModel GlobModel JsonPtrModel QueryModel DocModel DocSpec DocProofs.
From Verif Require TapeModel.
Local Open Scope nat_scope.

(** C14, setting: the pointer then reads the value (or empty object or array) that was set and every pointer that is not
    at or below it reads as before.  Proved for names in objects and for indexes that are not past the end of their
    array ([proper]).  Missing: the indexes refuted below. *)
Theorem C14_set_partial : forall h root ptr x h', document h root -> proper h root ptr = true ->
  (match x with Obj [] | Arr [] | Leaf _ | Deleter => True | _ => False end) ->
  set_new h root ptr x = Ok (h', Success) ->
  document h' root /\
  read h' root ptr = Ok (match x with Obj _ => Object (length h) | Arr _ => Array (length h) | Leaf v => Value v | Deleter => Removed end) /\
  (forall r, r <> [] -> at_path h' (length h) r = None) /\
  forall ptr', ~ below (route h root ptr) (route h root ptr') -> read h' root ptr' = read h root ptr'.
Proof. exact set_read. Qed.
Print Assumptions C14_set_partial.

(** Setting succeeds when the container is an object and the name is well formed, or an array and the index is not
    negative. *)
Theorem C14_set_succeeds : forall h root ptr x cp key c s, container_split ptr = Ok (cp, key) ->
  find_node h root cp = Ok (inl c) -> slot_of h c key = Some s -> exists h', set_new h root ptr x = Ok (h', Success).
Proof. exact set_succeeds. Qed.
Print Assumptions C14_set_succeeds.

(** C14, removing: a field of an object reads as nothing and all that is not at or below it as before; the elements of
    an array that come after a removed one move down by one place, with all that is below them. *)
Theorem C14_remove_partial : forall h root ptr h' n, document h root -> proper h root ptr = true ->
  remove h root ptr = Ok (h', inl n) ->
  document h' root /\ find_node h root ptr = Ok (inl n) /\
  exists cp s, route h root ptr = cp ++ [s] /\ (forall l, nth_error h l = nth_error h' l \/ container h l) /\
    match s with
    | Key _ => read h' root ptr = Ok Nothing /\
        forall ptr', ~ below (route h root ptr) (route h root ptr') ->
          read h' root ptr' = read h root ptr' /\ route h' root ptr' = route h root ptr'
    | Index i =>
        (forall j r, at_path h' root (cp ++ Index j :: r) = at_path h root (cp ++ Index (if j <? i then j else S j) :: r)) /\
        (forall q, (forall s r, q <> cp ++ s :: r) -> at_path h' root q = at_path h root q)
    end.
Proof. exact remove_ok. Qed.
Print Assumptions C14_remove_partial.

(** C14, moving: what was at [from] is at [to], with all that is below it; the rest reads as after the removal. *)
Theorem C14_move_partial : forall h root from to h1 n h', document h root -> proper h root from = true ->
  remove h root from = Ok (h1, inl n) -> proper h1 root to = true -> move h root from to = Ok (h', Success) ->
  document h' root /\ find_node h root from = Ok (inl n) /\ find_node h' root to = Ok (inl n) /\
  (forall r, at_path h' n r = at_path h n r) /\ (forall l, nth_error h l = nth_error h' l \/ container h l) /\
  forall ptr', ~ below (route h1 root to) (route h1 root ptr') -> read h' root ptr' = read h1 root ptr'.
Proof. exact move_ok. Qed.
Print Assumptions C14_move_partial.

(** A document {"a": {"b": 1, "c/d": "x"}, "l": [10, 20]}, made by setting. *)
Definition num (z : Z) : dval := DInt TapeModel.I64 z.
Definition steps : list (list byte * node) :=
  [(str "/a", Obj []); (str "/a/b", Leaf (num 1)); (str "/a/c~1d", Leaf (DStr (str "x")));
   (str "/l", Arr []); (str "/l/0", Leaf (num 10)); (str "/l/1", Leaf (num 20))].
Definition built_by (l : list (list byte * node)) : list node :=
  fold_left (fun h e => match set_new h 0 (fst e) (snd e) with Ok (h', _) => h' | Err _ => h end) l [Obj []].
Definition ex : list node := Eval vm_compute in built_by steps.
Definition tame (h : list node) (e : list byte * node) : bool :=
  proper h 0 (fst e) && (match snd e with Obj [] | Arr [] | Leaf _ | Deleter => true | _ => false end) &&
  (match set_new h 0 (fst e) (snd e) with Ok (_, Success) => true | _ => false end).
Fixpoint all_tame (h : list node) (l : list (list byte * node)) : bool :=
  match l with
  | [] => true
  | e :: r => tame h e && match set_new h 0 (fst e) (snd e) with Ok (h', _) => all_tame h' r | Err _ => false end
  end.
Lemma tame_built l : all_tame [Obj []] l = true -> document (built_by l) 0.
Proof.
  unfold built_by. intros T. apply built. assert (B : changes 0 [] [Obj []] [Obj []]) by constructor. revert T B. generalize [Obj []] at 1 3 5.
  induction l as [|e r IH]; intros h T B; [exact B|]. cbn [all_tame] in T. apply andb_true_iff in T as [Te Tr].
  unfold tame in Te. apply andb_true_iff in Te as [Te E]. apply andb_true_iff in Te as [P X].
  cbn [fold_left]. destruct (set_new h 0 (fst e) (snd e)) as [[h' []]|] eqn:S; try discriminate. apply IH; [exact Tr|].
  eapply one_more; try eassumption; [|eexists; reflexivity]. destruct (snd e) as [[]|[]| |]; try discriminate; exact Logic.I.
Qed.
Lemma ex_document : document ex 0.
Proof. exact (tame_built steps eq_refl). Qed.

Lemma slot_of_index h c ls key i : nth_error h c = Some (Arr ls) -> atol key = Ok i -> (0 <= i)%Z ->
  exists j, slot_of h c key = Some (Index j) /\ Z.of_nat j = i.
Proof.
  intros N A L. exists (Z.to_nat i). unfold slot_of. rewrite N, A. destruct (Z.ltb_spec i 0); [lia|]. split; [reflexivity|apply Z2Nat.id, L].
Qed.
Definition after {A} (r : res (list node * A)) : list node := match r with Ok (h, _) => h | Err _ => [] end.
Definition reads (h : list node) (ps : list string) : list (res shown) := map (fun p => read h 0 (str p)) ps.
Example C14_set_example :
  document ex 0 /\ reads ex ["/a/b"; "/a/c~1d"; "/l/0"; "/l/1"; "/z"]%string = [Ok (Value (num 1)); Ok (Value (DStr (str "x"))); Ok (Value (num 10)); Ok (Value (num 20)); Ok Nothing] /\
  forallb (fun p => proper ex 0 (str p)) ["/a/b"; "/z"; "/a"; "/l/0"; "/l/2"]%string = true /\
  (exists h', set_new ex 0 (str "/a/b") (Leaf (num 7)) = Ok (h', Success) /\
     reads h' ["/a/b"; "/a/c~1d"; "/l/0"; "/l/1"]%string = [Ok (Value (num 7)); Ok (Value (DStr (str "x"))); Ok (Value (num 10)); Ok (Value (num 20))]) /\
  ~ below (route ex 0 (str "/a/b")) (route ex 0 (str "/a/c~1d")) /\
  (exists h', set_new ex 0 (str "/l/2") (Leaf (num 30)) = Ok (h', Success) /\ read h' 0 (str "/l/2") = Ok (Value (num 30))).
Proof.
  split; [exact ex_document|]. split; [vm_compute; reflexivity|]. split; [vm_compute; reflexivity|].
  split; [eexists; split; vm_compute; reflexivity|]. split; [|eexists; split; vm_compute; reflexivity].
  vm_compute. intros (r & E). discriminate.
Qed.
Example C14_remove_example :
  (exists h' n, remove ex 0 (str "/l/0") = Ok (h', inl n) /\ reads h' ["/l/0"; "/l/1"; "/a/b"]%string = [Ok (Value (num 20)); Ok Nothing; Ok (Value (num 1))]) /\
  (exists h' n, remove ex 0 (str "/a/b") = Ok (h', inl n) /\ reads h' ["/a/b"; "/a/c~1d"]%string = [Ok Nothing; Ok (Value (DStr (str "x")))]) /\
  (exists h1 n h', remove ex 0 (str "/a") = Ok (h1, inl n) /\ proper h1 0 (str "/l/2") = true /\ move ex 0 (str "/a") (str "/l/2") = Ok (h', Success) /\
     reads h' ["/a"; "/l/2/b"; "/l/1"]%string = [Ok Nothing; Ok (Value (num 1)); Ok (Value (num 20))]).
Proof. repeat split; repeat eexists; vm_compute; reflexivity. Qed.

(** An index past the end appends, so the pointer reads nothing. *)
Theorem C14_past_end_refuted : exists h ptr h', document h 0 /\ set_new h 0 ptr (Leaf (num 30)) = Ok (h', Success) /\ read h' 0 ptr = Ok Nothing.
Proof. exists ex, (str "/l/7"). eexists. split; [exact ex_document|]. split; vm_compute; reflexivity. Qed.
Print Assumptions C14_past_end_refuted.
(** An index of more than 32 bits is cut: another element is overwritten. *)
Theorem C14_wide_index_refuted : exists h ptr h', document h 0 /\ set_new h 0 ptr (Leaf (num 30)) = Ok (h', Success) /\
  ~ below (route h 0 ptr) (route h 0 (str "/l/0")) /\ read h 0 (str "/l/0") = Ok (Value (num 10)) /\ read h' 0 (str "/l/0") = Ok (Value (num 30)).
Proof.
  exists ex, (str "/l/4294967296"). eexists. split; [exact ex_document|]. split; [vm_compute; reflexivity|]. split; [|split; vm_compute; reflexivity].
  intros (r & E). unfold route in E. change (raw_keys (str "/l/4294967296")) with [str "l"; str "4294967296"] in E.
  change (raw_keys (str "/l/0")) with [str "l"; str "0"] in E.
  assert (E0 : route_keys ex 0 [str "l"; str "0"] = [Key (str "l"); Index 0]) by (vm_compute; reflexivity). rewrite E0 in E. clear E0.
  cbn [route_keys] in E. replace (slot_of ex 0 (str "l")) with (Some (Key (str "l"))) in E by reflexivity. cbv iota in E.
  replace (child ex 0 (Key (str "l"))) with (Some 4) in E by reflexivity. cbv iota in E.
  destruct (slot_of_index ex 4 [5; 6] (str "4294967296") 4294967296 eq_refl eq_refl) as (j & S4 & J); [lia|].
  rewrite S4 in E. cbn [app] in E. injection E as E _. subst j. discriminate J.
Qed.
Print Assumptions C14_wide_index_refuted.
(** A text where a number is expected stands for the first element. *)
Theorem C14_text_index_refuted : exists h ptr h', document h 0 /\ set_new h 0 ptr (Leaf (num 30)) = Ok (h', Success) /\ ptr = str "/l/abc" /\
  read h 0 (str "/l/0") = Ok (Value (num 10)) /\ read h' 0 (str "/l/0") = Ok (Value (num 30)).
Proof. exists ex, (str "/l/abc"). eexists. split; [exact ex_document|]. repeat split; vm_compute; reflexivity. Qed.
Print Assumptions C14_text_index_refuted.
(** A move to a place that does not exist fails and loses the value. *)
Theorem C14_move_refuted : exists h from to h' e, document h 0 /\ move h 0 from to = Ok (h', e) /\ e <> Success /\
  read h 0 from = Ok (Value (num 1)) /\ read h' 0 from = Ok Nothing.
Proof. exists ex, (str "/a/b"), (str "/q/r"). do 2 eexists. split; [exact ex_document|]. split; [vm_compute; reflexivity|]. split; [discriminate|]. split; vm_compute; reflexivity. Qed.
Print Assumptions C14_move_refuted.
(** The pointer of the whole document cannot be set: the character at position 0 of an empty text is asked for. *)
Theorem C14_whole_refuted : forall h root x, (exists y, nth_error h root = Some y) -> set_new h root [] x = Err Throw.
Proof. intros h root x [y E]. reflexivity. Qed.
Print Assumptions C14_whole_refuted.

(** C15: the copy of a value, or of an object whose fields are all values, is equal and what is later set at or below the
    place of the copy is seen nowhere else, in particular not at the original.  Missing: objects with objects or arrays in
    them and arrays (refuted below). *)
Theorem C15_copy_partial : forall h root from to h' l x, document h root -> proper h root from = true -> proper h root to = true ->
  find_node h root from = Ok (inl l) -> nth_error h l = Some x -> flat h x -> (match x with Arr (_ :: _) => False | _ => True end) ->
  copy h root from to = Ok (h', Success) ->
  (exists m, find_node h' root to = Ok (inl m) /\ nth_error h' m = Some x) /\
  (forall ptr, ~ below (route h root to) (route h root ptr) -> read h' root ptr = read h root ptr) /\
  forall h'', changes root (route h root to) h' h'' ->
    forall ptr, ~ below (route h root to) (route h root ptr) -> read h'' root ptr = read h root ptr.
Proof. exact copy_ok. Qed.
Print Assumptions C15_copy_partial.

Definition inner_steps : list (list byte * node) := [(str "/a", Obj []); (str "/a/b", Obj []); (str "/a/b/c", Leaf (num 1)); (str "/l", Arr []); (str "/l/0", Leaf (num 5))].
Definition inner : list node := Eval vm_compute in built_by inner_steps.
Lemma inner_document : document inner 0.
Proof. exact (tame_built inner_steps eq_refl). Qed.

Example C15_copy_example : exists l x h' h'',
  document ex 0 /\ proper ex 0 (str "/a") = true /\ proper ex 0 (str "/x") = true /\ find_node ex 0 (str "/a") = Ok (inl l) /\
  nth_error ex l = Some x /\ flat ex x /\ copy ex 0 (str "/a") (str "/x") = Ok (h', Success) /\
  changes 0 (route ex 0 (str "/x")) h' h'' /\ reads h'' ["/a/b"; "/x/b"; "/x/c~1d"]%string = [Ok (Value (num 1)); Ok (Value (num 2)); Ok (Value (DStr (str "x")))].
Proof.
  eexists 1, _, _, (after (set_new (after (copy ex 0 (str "/a") (str "/x"))) 0 (str "/x/b") (Leaf (num 2)))).
  split; [exact ex_document|]. split; [reflexivity|]. split; [reflexivity|]. split; [vm_compute; reflexivity|]. split; [vm_compute; reflexivity|].
  split; [|split; [vm_compute; reflexivity|split; [|vm_compute; reflexivity]]].
  - cbn -[lookup]. intros k l. cbn. destruct (beqb k _); [intros E; injection E as <-; cbn; split; [lia|auto]|].
    destruct (beqb k _); [intros E; injection E as <-; cbn; split; [lia|auto]|discriminate].
  - eapply one_more with (ptr := str "/x/b") (x := Leaf (num 2)); [constructor|exact Logic.I|reflexivity| |vm_compute; reflexivity].
    exists [Key (str "b")]. vm_compute. reflexivity.
Qed.

(** The objects inside a copied object are shared with the original. *)
Theorem C15_nested_refuted : exists h h' h'', document h 0 /\ copy h 0 (str "/a") (str "/x") = Ok (h', Success) /\
  set_new h' 0 (str "/x/b/c") (Leaf (num 9)) = Ok (h'', Success) /\
  read h' 0 (str "/a/b/c") = Ok (Value (num 1)) /\ read h'' 0 (str "/a/b/c") = Ok (Value (num 9)).
Proof. exists inner. do 2 eexists. split; [exact inner_document|]. repeat split; vm_compute; reflexivity. Qed.
Print Assumptions C15_nested_refuted.
(** Copying an array that is not empty writes past the end of an empty vector. *)
Theorem C15_array_refuted : exists h, document h 0 /\ read h 0 (str "/l/0") = Ok (Value (num 5)) /\ copy h 0 (str "/l") (str "/x") = Err UB.
Proof. exists inner. split; [exact inner_document|]. split; vm_compute; reflexivity. Qed.
Print Assumptions C15_array_refuted.

(** C16: after an update the field has the value, the answer is whether it had another one before, and all else reads as
    before.  Proved for fields of the kind of the new value, and for missing ones when the new value is not the default
    of its type ([updatable]); [stored] is the value with the type it is stored with.  Missing: the cases below. *)
Theorem C16_update_partial : forall h root ptr v old, document h root -> proper h root ptr = true ->
  (match v with DInt k z => TapeModel.fits k z = true | _ => True end) ->
  read h root ptr = Ok old -> updatable old v = true -> (exists h1, set_new h root ptr (Leaf (stored v)) = Ok (h1, Success)) ->
  exists h' new, update h root ptr v = Ok (h', negb (same_shown old v)) /\ read h' root ptr = Ok new /\ same_shown new v = true /\
    forall ptr', ~ below (route h root ptr) (route h root ptr') -> read h' root ptr' = read h root ptr'.
Proof. exact update_ok. Qed.
Print Assumptions C16_update_partial.

Example C16_update_example :
  updatable (Value (num 1)) (DInt TapeModel.I8 0) = true /\ updatable Nothing (DStr (str "q")) = true /\
  (exists h', update ex 0 (str "/a/b") (DInt TapeModel.I8 0) = Ok (h', true) /\ read h' 0 (str "/a/b") = Ok (Value (num 0))) /\
  (exists h', update ex 0 (str "/a/b") (num 1) = Ok (h', false) /\ read h' 0 (str "/a/b") = Ok (Value (num 1))) /\
  (exists h', update ex 0 (str "/n") (DStr (str "q")) = Ok (h', true) /\ read h' 0 (str "/n") = Ok (Value (DStr (str "q")))).
Proof. split; [reflexivity|]. split; [reflexivity|]. repeat split; eexists; split; vm_compute; reflexivity. Qed.

(** A missing field is not made when the value is 0, false or the empty text. *)
Theorem C16_default_refuted : exists h, document h 0 /\ read h 0 (str "/n") = Ok Nothing /\
  forall v, In v [num 0; DBool false; DStr []] -> update h 0 (str "/n") v = Ok (h, false).
Proof.
  exists ex. split; [exact ex_document|]. split; [vm_compute; reflexivity|].
  intros v [<-|[<-|[<-|[]]]]; vm_compute; reflexivity.
Qed.
Print Assumptions C16_default_refuted.
(** A text is not replaced by the number 0. *)
Theorem C16_other_type_refuted : exists h, document h 0 /\ read h 0 (str "/a/c~1d") = Ok (Value (DStr (str "x"))) /\
  update h 0 (str "/a/c~1d") (num 0) = Ok (h, false).
Proof. exists ex. split; [exact ex_document|]. split; vm_compute; reflexivity. Qed.
Print Assumptions C16_other_type_refuted.
(** NULL never replaces anything. *)
Theorem C16_null_refuted : forall h root ptr, update h root ptr DNull = Ok (h, false).
Proof. reflexivity. Qed.
Print Assumptions C16_null_refuted.
(** A change is reported though the object that should have the field does not exist and nothing is changed. *)
Theorem C16_reported_refuted : exists h, document h 0 /\ update h 0 (str "/q/r") (num 5) = Ok (h, true) /\ read h 0 (str "/q/r") = Ok Nothing.
Proof. exists ex. split; [exact ex_document|]. split; vm_compute; reflexivity. Qed.
Print Assumptions C16_reported_refuted.
