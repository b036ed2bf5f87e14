From Coq Require Import Lia.
From Verif Require Import Bytes Outcome ByteOrd PyModel PySpec.
Local Open Scope Z_scope.

Section P.
Context {F : Type} (base64 : list byte -> list byte) (kf : bool).
Notation build := (build base64 kf).

Lemma choose : forall (A : Type) (P : A -> Prop) (b : bool) (x y : A), P x -> P y -> P (if b then x else y).
Proof. now intros A P []. Qed.
(** induction over nested lists *)
Fixpoint py_rect' (P : py F -> Prop)
  (prim : forall o, match o with PList _ | PTuple _ | PDict _ => True | _ => P o end)
  (hl : forall l, Forall P l -> P (PList l)) (ht : forall l, Forall P l -> P (PTuple l))
  (hd : forall l, Forall (fun f => P (fst f) /\ P (snd f)) l -> P (PDict l)) (o : py F) {struct o} : P o :=
  match o with
  | PList l => hl l ((fix go l : Forall P l := match l with [] => Forall_nil _ | x :: r => Forall_cons _ (py_rect' P prim hl ht hd x) (go r) end) l)
  | PTuple l => ht l ((fix go l : Forall P l := match l with [] => Forall_nil _ | x :: r => Forall_cons _ (py_rect' P prim hl ht hd x) (go r) end) l)
  | PDict l => hd l ((fix go l : Forall (fun f => P (fst f) /\ P (snd f)) l :=
      match l with [] => Forall_nil _ | x :: r => Forall_cons _ (conj (py_rect' P prim hl ht hd (fst x)) (py_rect' P prim hl ht hd (snd x))) (go r) end) l)
  | PNone => prim PNone | PBool b => prim (PBool b) | PInt z => prim (PInt z) | PFloat f => prim (PFloat f)
  | PBytes b => prim (PBytes b) | PStr s => prim (PStr s)
  end.

(** the loops by themselves *)
Fixpoint items (l : list (py F)) (acc : list node) (t : tape F) : res (node * tape F) :=
  match l with
  | [] => Ok (Arr acc, t)
  | x :: r => do '(n, t) <- build x t; items r (acc ++ [n]) t
  end.
Fixpoint fields (l : list (py F * py F)) (acc : list (list byte * node)) (t : tape F) : res (node * tape F) :=
  match l with
  | [] => Ok (Obj acc, t)
  | (k, v) :: r =>
    if kf
    then do '(kn, t) <- build k t; do '(vn, t) <- build v t; do acc <- set_field t acc kn vn; fields r acc t
    else do '(vn, t) <- build v t; do '(kn, t) <- build k t; do acc <- set_field t acc kn vn; fields r acc t
  end.
Lemma build_list : forall l t, build (PList l) t = items l [] t. Proof. reflexivity. Qed.
Lemma build_tuple : forall l t, build (PTuple l) t = items l [] t. Proof. reflexivity. Qed.
Lemma build_dict : forall l t, build (PDict l) t = fields l [] t. Proof. reflexivity. Qed.
Definition read_items (t : tape F) : list node -> res (py F) := fix read_items (l : list node) : res (py F) :=
  match l with
  | [] => Ok (PList [])
  | x :: r => do y <- from_document t x; do ys <- read_items r; match ys with PList ys => Ok (PList (y :: ys)) | _ => Err UB end
  end.
Definition read_fields (t : tape F) : list (list byte * node) -> res (py F) := fix read_fields (l : list (list byte * node)) : res (py F) :=
  match l with
  | [] => Ok (PDict [])
  | (k, x) :: r => do y <- from_document t x; do ys <- read_fields r;
    match ys with PDict ys => Ok (PDict ((PStr k, y) :: ys)) | _ => Err UB end
  end.
Lemma read_arr : forall t l, from_document t (Arr l) = read_items t l. Proof. reflexivity. Qed.
Lemma read_obj : forall t l, from_document t (Obj l) = read_fields t l. Proof. reflexivity. Qed.

Definition good (o : py F) : Prop := forall t, storable o ->
  exists n u, build o t = Ok (n, t ++ u) /\ forall w, from_document (t ++ u ++ w) n = Ok (given_back base64 o).

Lemma prim_good : forall (o : py F) v t, build_primitive base64 t o = Ok (t ++ [v]) -> from_element v = given_back base64 o ->
  (match o with PList _ | PTuple _ | PDict _ => False | _ => True end) ->
  exists n u, build o t = Ok (n, t ++ u) /\ forall w, from_document (t ++ u ++ w) n = Ok (given_back base64 o).
Proof.
  intros o v t B E N. exists (Mut (length t)), [v]. split.
  - destruct o; try (destruct N); cbn [PyModel.build]; rewrite B; reflexivity.
  - intros w. cbn [from_document]. rewrite nth_error_app2 by lia. rewrite Nat.sub_diag. cbn [app nth_error]. now rewrite E.
Qed.

Definition reads (t : tape F) (acc : list node) (ys : list (py F)) : Prop :=
  forall w, Forall2 (fun n y => from_document (t ++ w) n = Ok y) acc ys.
Lemma reads_grow : forall t u acc ys, reads t acc ys -> reads (t ++ u) acc ys.
Proof. intros t u acc ys R w. rewrite <- app_assoc. apply R. Qed.
Lemma items_good : forall l, Forall good l -> Forall storable l -> forall acc ys t, reads t acc ys ->
  exists ns u, items l acc t = Ok (Arr ns, t ++ u) /\ reads (t ++ u) ns (ys ++ map (given_back base64) l).
Proof.
  induction l as [|x l IH]; intros G S acc ys t R.
  - exists acc, []. cbn [items map]. rewrite !app_nil_r. now split.
  - inversion G as [|? ? Gx G']; inversion S as [|? ? Sx S']; subst. destruct (Gx t Sx) as (n & u & B & Rn).
    cbn [items]. rewrite B. cbn [rbind].
    destruct (IH G' S' (acc ++ [n]) (ys ++ [given_back base64 x]) (t ++ u)) as (ns & u' & B' & R').
    + intros w. apply Forall2_app; [now apply reads_grow|]. constructor; [|constructor]. rewrite <- app_assoc. apply Rn.
    + exists ns, (u ++ u'). split; [now rewrite B', <- app_assoc|]. cbn [map]. rewrite <- !app_assoc in R'. exact R'.
Qed.
Lemma read_items_good : forall t l ys, Forall2 (fun n y => from_document t n = Ok y) l ys -> read_items t l = Ok (PList ys).
Proof. intros t l ys H. induction H as [|n y l ys E H IH]; [reflexivity|]. cbn [read_items]. rewrite E. cbn [rbind]. fold (read_items t). rewrite IH. reflexivity. Qed.

Definition freads (t : tape F) (acc : list (list byte * node)) (ys : list (py F * py F)) : Prop :=
  forall w, Forall2 (fun n y => PStr (fst n) = fst y /\ from_document (t ++ w) (snd n) = Ok (snd y)) acc ys.
Lemma set_new : forall t p s acc v, nth_error t p = Some (VStr s) -> ~ In s (map fst acc) -> set_field (F := F) t acc (Mut p) v = Ok (acc ++ [(s, v)]).
Proof.
  intros t p s acc v H N. unfold set_field. rewrite H. destruct (existsb (fun f => beqb (fst f) s) acc) eqn:E; [|reflexivity].
  apply existsb_exists in E. destruct E as (f & I & E). apply beqb_eq in E. elim N. rewrite <- E. now apply in_map.
Qed.
Lemma fields_good : forall l, Forall (fun f => good (snd f)) l -> Forall (fun f => storable (snd f)) l ->
  forall ks acc ys t, map fst l = map PStr ks -> NoDup ks -> (forall k, In k ks -> ~ In k (map fst acc)) -> freads t acc ys ->
  exists ns u, fields l acc t = Ok (Obj ns, t ++ u) /\ freads (t ++ u) ns (ys ++ map (fun f => (fst f, given_back base64 (snd f))) l).
Proof.
  induction l as [|[k v] l IH]; intros G S ks acc ys t K D N R.
  - exists acc, []. cbn [fields map]. rewrite !app_nil_r. now split.
  - inversion G as [|? ? Gv G']; inversion S as [|? ? Sv S']; subst. cbn [fst snd] in *.
    destruct ks as [|s ks]; [discriminate|]. cbn [map] in K. injection K as Ek K. cbn [fst] in Ek. subst k.
    inversion D as [|? ? Ns D']; subst. cbn [fields].
    assert (Z : exists vn u, (if kf
      then do '(kn, t) <- build (PStr s) t; do '(vn, t) <- build v t; do acc <- set_field t acc kn vn; fields l acc t
      else do '(vn, t) <- build v t; do '(kn, t) <- build (PStr s) t; do acc <- set_field t acc kn vn; fields l acc t)
      = fields l (acc ++ [(s, vn)]) (t ++ u) /\ forall w, from_document (t ++ u ++ w) vn = Ok (given_back base64 v)).
    { assert (NI : ~ In s (map fst acc)) by (apply N; now left).
      apply (choose _ (fun r => exists vn u, r = fields l (acc ++ [(s, vn)]) (t ++ u) /\ forall w, from_document (t ++ u ++ w) vn = Ok (given_back base64 v))).
      - change (build (PStr s) t) with (@Ok (node * tape F) (Mut (length t), t ++ [VStr s])). cbn [rbind].
        destruct (Gv (t ++ [VStr s]) Sv) as (vn & u & B & Rv). rewrite B. cbn [rbind]. exists vn, (VStr s :: u).
        rewrite (set_new _ _ s acc vn); [| |assumption].
        + cbn [rbind]. rewrite <- app_assoc. split; [reflexivity|]. intros w. specialize (Rv w). rewrite <- app_assoc in Rv. exact Rv.
        + rewrite <- app_assoc. rewrite nth_error_app2 by lia. now rewrite Nat.sub_diag.
      - destruct (Gv t Sv) as (vn & u & B & Rv). rewrite B. cbn [rbind].
        change (build (PStr s) (t ++ u)) with (@Ok (node * tape F) (Mut (length (t ++ u)), (t ++ u) ++ [VStr s])). cbn [rbind].
        exists vn, (u ++ [VStr s]). rewrite (set_new _ _ s acc vn); [| |assumption].
        + cbn [rbind]. rewrite <- !app_assoc. split; [reflexivity|]. intros w. rewrite <- app_assoc. apply Rv.
        + rewrite nth_error_app2 by lia. now rewrite Nat.sub_diag. }
    destruct Z as (vn & u & E & Rv). 
    destruct (IH G' S' ks (acc ++ [(s, vn)]) (ys ++ [(PStr s, given_back base64 v)]) (t ++ u) K D') as (ns & u' & B' & R').
    + intros k Ik. rewrite map_app, in_app_iff. intros [I|[I|[]]]; [now apply (N k); [right|]|]. cbn [fst] in I. subst k. now elim Ns.
    + intros w. apply Forall2_app; [rewrite <- app_assoc; apply R|]. constructor; [|constructor]. cbn [fst snd]. split; [reflexivity|].
      rewrite <- app_assoc. apply Rv.
    + exists ns, (u ++ u'). split; [rewrite E, B'; now rewrite <- app_assoc|]. cbn [map fst snd]. rewrite <- !app_assoc in R'. exact R'.
Qed.
Lemma read_fields_good : forall t l ys, Forall2 (fun n y => PStr (fst n) = fst y /\ from_document t (snd n) = Ok (snd y)) l ys ->
  read_fields t l = Ok (PDict ys).
Proof.
  intros t l ys H. induction H as [|[k n] [k' y] l ys [E1 E2] H IH]; [reflexivity|]. cbn [fst snd] in *. subst k'.
  cbn [read_fields]. rewrite E2. cbn [rbind]. fold (read_fields t). rewrite IH. reflexivity.
Qed.

Lemma all_good : forall o, good o.
Proof.
  apply py_rect'; [intros o|intros l IH|intros l IH|intros l IH].
  - destruct o; try exact I; intros t S.
    + inversion S.
    + now apply (prim_good _ (VBool b)).
    + apply (prim_good _ (VInt z)); [|reflexivity|exact I]. cbn [build_primitive]. inversion S; subst.
      destruct (Z.leb_spec (- 2 ^ 63) z); [|lia]. destruct (Z.ltb_spec z (2 ^ 63)); [reflexivity|lia].
    + now apply (prim_good _ (VFloat f)).
    + now apply (prim_good _ (VStr (base64 b))).
    + now apply (prim_good _ (VStr s)).
  - intros t S. inversion S; subst. destruct (items_good l IH H0 [] [] t) as (ns & u & B & R); [intros w; constructor|].
    exists (Arr ns), u. split; [now rewrite build_list|]. intros w. rewrite read_arr, app_assoc. apply read_items_good. exact (R w).
  - intros t S. inversion S; subst. destruct (items_good l IH H0 [] [] t) as (ns & u & B & R); [intros w; constructor|].
    exists (Arr ns), u. split; [now rewrite build_tuple|]. intros w. rewrite read_arr, app_assoc. apply read_items_good. exact (R w).
  - intros t S. inversion S as [| | | | | | |? ks K D Sv]; subst.
    destruct (fields_good l) with (ks := ks) (acc := @nil (list byte * node)) (ys := @nil (py F * py F)) (t := t) as (ns & u & B & R);
      [|exact Sv|exact K|exact D|intros k _ []|intros w; constructor|].
    + apply Forall_forall. intros f If. rewrite Forall_forall in IH. apply (IH f If).
    + exists (Obj ns), u. split; [now rewrite build_dict|]. intros w. rewrite read_obj, app_assoc. apply read_fields_good. exact (R w).
Qed.
Lemma round_trip : forall l : list (py F * py F), storable (PDict l) ->
  exists n t, to_document base64 kf l = Ok (n, t) /\ from_document t n = Ok (given_back base64 (PDict l)).
Proof.
  intros l S. destruct (all_good (PDict l) [] S) as (n & u & B & R). exists n, u. split; [exact B|].
  specialize (R []). cbn [app] in R. now rewrite app_nil_r in R.
Qed.
End P.
