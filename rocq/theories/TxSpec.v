(** What transactions on the metadata of tables should do. *)
From Verif Require Import Bytes Outcome ByteOrd SDiffModel CSchemaModel CatModel CatSpec TxModel.

(** A change of a table: of its columns, or of its description. *)
Inductive chg := OfColumns (o : sop) | OfDescription (d : bstr).
Definition of_columns (l : list chg) : list sop :=
  flat_map (fun c => match c with OfColumns o => [o] | OfDescription _ => [] end) l.
Definition description (l : list chg) (d : bstr) : bstr :=
  fold_left (fun d c => match c with OfColumns _ => d | OfDescription x => x end) l d.
(** The table after a list of changes. *)
Definition changed (l : list chg) (m : meta) : res meta :=
  do s <- match of_columns l with
          | [] => Ok (m_schema m)
          | os => do d <- build os no_diff; apply_diff d (m_schema m)
          end;
  Ok (Meta s (description l (m_desc m))).

(** The savepoints since the latest one named [n], that one first. *)
Fixpoint upto (n : bstr) (ss : list (bstr * list chg)) : option (list chg * list (bstr * list chg)) :=
  match ss with
  | [] => None
  | (m, l) :: r => if beqb m n then Some (l, ss) else upto n r
  end.
(** The changes a transaction stands for after some calls, and its savepoints; [None] after rolling back
    to a savepoint it does not have.  Rolling back discards the later changes and savepoints. *)
Definition net1 (o : top) (x : list chg * list (bstr * list chg)) : option (list chg * list (bstr * list chg)) :=
  let '(l, ss) := x in
  match o with
  | Change o => Some (l ++ [OfColumns o], ss)
  | Describe d => Some (l ++ [OfDescription d], ss)
  | Save n => Some (l, (n, l) :: ss)
  | Back n => upto n ss
  end.
Fixpoint net (os : list top) (x : list chg * list (bstr * list chg)) : option (list chg * list (bstr * list chg)) :=
  match os with
  | [] => Some x
  | o :: r => match net1 o x with Some y => net r y | None => None end
  end.
Definition nets (os : list top) : option (list chg * list (bstr * list chg)) := net os ([], []).

(** No savepoint is named like an earlier one, and none is rolled back to after it was discarded. *)
Definition saved (os : list top) : list bstr :=
  flat_map (fun o => match o with Save n => [n] | _ => [] end) os.
Definition orderly1 (before : list top) (o : top) : Prop :=
  match o with
  | Save n => ~ In n (saved before)
  | Back n => In n (saved before) -> forall l ss, nets before = Some (l, ss) -> In n (map fst ss)
  | _ => True
  end.

(** A transaction: open, with the calls made on it, or finished. *)
Inductive atx := Open (p : path) (n : bstr) (calls : list top) | Finished.
Record astate := AState { a_world : world meta; a_txs : list atx }.
Definition astart : astate := AState empty_world [].
(** What a call should report. *)
Inductive areport := ACat (m : mistake) | AOk | AError | AAny.

Definition astep (s : astate) (e : event) : astate * areport :=
  let w := a_world s in let ts := a_txs s in
  match e with
  | Cat o => let '(w', m) := wstep w o in (AState w' ts, ACat m)
  | Begin p n =>
      match t_at w Regular p n with
      | Some _ => (AState w (ts ++ [Open p n []]), AOk)
      | None => (AState w (ts ++ [Finished]), AError)
      end
  | Do i o =>
      match nth_error ts i with
      | Some (Open p n os) =>
          (AState w (set_nth i (Open p n (os ++ [o])) ts), match nets (os ++ [o]) with Some _ => AOk | None => AError end)
      | Some Finished => (s, AError)
      | None => (s, AAny)
      end
  | Abort i => (AState w (set_nth i Finished ts), AAny)
  | Commit i =>
      match nth_error ts i with
      | Some (Open p n os) =>
          let failed := (AState w (set_nth i Finished ts), AError) in
          match nets os with
          | None => failed
          | Some ([], _) => (AState w (set_nth i Finished ts), AOk)
          | Some (l, _) =>
              match t_at w Regular p n with
              | None => failed
              | Some m =>
                  match changed l m with
                  | Ok m' => (AState (t_set w Regular p n (Some m')) (set_nth i Finished ts), AOk)
                  | Err _ => (s, AAny)
                  end
              end
          end
      | Some Finished => (s, AError)
      | None => (s, AAny)
      end
  end.
Fixpoint arun (s : astate) (es : list event) : astate * list areport :=
  match es with
  | [] => (s, [])
  | e :: r => let '(s1, x) := astep s e in let '(s2, xs) := arun s1 r in (s2, x :: xs)
  end.

Definition meets (x : report) (y : areport) : Prop :=
  match y with
  | ACat m => exists o, x = RCat o m
  | AOk => x = RErr None
  | AError => exists e, x = RErr (Some e)
  | AAny => True
  end.
(** No call threw. *)
Definition smooth (x : report) : Prop := match x with RThrow => False | RCat Thrown _ => False | _ => True end.

(** Savepoints are used in order throughout. *)
Fixpoint orderly (s : astate) (es : list event) : Prop :=
  match es with
  | [] => True
  | e :: r =>
      match e with
      | Do i o => match nth_error (a_txs s) i with Some (Open _ _ os) => orderly1 os o | _ => True end
      | _ => True
      end /\ orderly (fst (astep s e)) r
  end.
Definition done (b : scope) : Prop := c_committed b = true \/ c_aborted b = true.
