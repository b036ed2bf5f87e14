(** What a statement that went through the log must be. *)
From Verif Require Import Bytes Outcome MsgpackModel TapeModel TapeSpec DocPackModel DocPackSpec StmtModel.
Local Open Scope N_scope.

Section All2.
  Context {A B : Type}.
  Variable P : A -> B -> Prop.
  Fixpoint all2 (l : list A) (m : list B) : Prop :=
    match l, m with [], [] => True | x :: l', y :: m' => P x y /\ all2 l' m' | _, _ => False end.
End All2.

(** * The statement [n], whose documents are on tapes, is the statement [v], whose documents are contents. *)
Notation D := (doc * tree)%type.
(** a node that has neither documents nor nodes below it *)
Definition plain {A B} (n : node A) : option (node B) :=
  match n with
  | NNull => Some NNull | NCreateColl c l => Some (NCreateColl c l) | NCreateDb c => Some (NCreateDb c)
  | NCreateIndex t c s ks => Some (NCreateIndex t c s ks) | NChunk rows => Some (NChunk rows)
  | NDelete c f mc es lc z => Some (NDelete c f mc es lc z) | NDropColl c => Some (NDropColl c) | NDropDb c => Some (NDropDb c)
  | NDropIndex c s => Some (NDropIndex c s) | NLimit c z => Some (NLimit c z) | NMatch c es => Some (NMatch c es)
  | NGroup c es => Some (NGroup c es) | NSort c es => Some (NSort c es)
  | NUpdate c f mc es lc z us u => Some (NUpdate c f mc es lc z us u)
  | _ => None
  end.
Fixpoint shows (n : node D) (v : node content) : Prop :=
  match n, v with
  | NAggregate c ch, NAggregate c' ch' => c = c' /\ all2 shows ch ch'
  | NInsert c ch tr, NInsert c' ch' tr' => c = c' /\ tr = tr' /\ all2 shows ch ch'
  | NJoin t c ch es, NJoin t' c' ch' es' => t = t' /\ c = c' /\ es = es' /\ all2 shows ch ch'
  | NFunction s a ch, NFunction s' a' ch' => s = s' /\ a = a' /\ all2 shows ch ch'
  | NData docs, NData vs => all2 (fun x v => holds (fst x) (snd x) v) docs vs
  | _, _ => plain n = Some v
  end.
(** The parameters are these values. *)
Definition shows_params (p : params) (q : list (N * scalar)) : Prop :=
  all2 (fun x y => fst x = fst y /\ exists i, snd x = Some i /\ reads (ptape p) i (snd y)) (pvals p) q.

(** Numbers of documents and parameters come back as numbers of 64 bits (C10). *)
Fixpoint node64 (v : node content) : node content :=
  match v with
  | NAggregate c ch => NAggregate c (map node64 ch)
  | NInsert c ch tr => NInsert c (map node64 ch) tr
  | NJoin t c ch es => NJoin t c (map node64 ch) es
  | NFunction s a ch => NFunction s a (map node64 ch)
  | NData vs => NData (map all64 vs)
  | _ => v
  end.
Definition params64 (q : list (N * scalar)) : list (N * scalar) := map (fun x => (fst x, as64 (snd x))) q.

(** * Values of the C++ types *)
Definition key_ok (k : key) : bool :=
  match k with KNone => true | KStr s => small s | KInt z => fits I32 z | KUint n => n <? 2 ^ 32 end.
Definition coll_ok (c : coll) : bool := small (database c) && small (collection c).
Definition param_ok (f : expr -> bool) (p : param expr) : bool :=
  match p with PId n => n <? 2 ^ 16 | PKey k => key_ok k | PExpr e => f e end.
Fixpoint expr_ok (e : expr) : bool :=
  match e with
  | ENull => true
  | ECmp t kl kr v ch => (t <? 2 ^ 8) && key_ok kl && key_ok kr && (v <? 2 ^ 16) && small ch && forallb expr_ok ch
  | EAgg t k ps | EScalar t k ps => (t <? 2 ^ 8) && key_ok k && small ps && forallb (param_ok expr_ok) ps
  | ESort o k => fits I8 o && key_ok k
  end.
(** The enumerators of the calculations are 3 to 18. *)
Fixpoint upd_ok (u : upd) : bool :=
  match u with
  | UNull => true
  | USet k l => key_ok k && upd_ok l
  | UGet k side => key_ok k && (side <? 2 ^ 8)
  | UConst id => id <? 2 ^ 16
  | UCalc t l r => (3 <=? t) && (t <=? 18) && upd_ok l && upd_ok r
  end.
Definition doc_ok (v : content) : bool := match v with CObj _ => storable v && (text_size v <? 2 ^ 56) | _ => false end.
Fixpoint node_ok (v : node content) : bool :=
  match v with
  | NNull | NChunk _ => true
  | NAggregate c ch => coll_ok c && small ch && forallb node_ok ch
  | NCreateColl c _ | NCreateDb c | NDropColl c | NDropDb c => coll_ok c
  | NCreateIndex t c s ks => (t <? 2 ^ 8) && coll_ok c && small s && small ks && forallb key_ok ks
  | NData vs => small vs && forallb doc_ok vs
  | NDelete c from mc es lc z => coll_ok c && coll_ok from && coll_ok mc && small es && forallb expr_ok es && coll_ok lc && fits I32 z
  | NDropIndex c s => coll_ok c && small s
  | NInsert c ch tr => coll_ok c && small ch && forallb node_ok ch && small tr && forallb (fun p => key_ok (fst p) && key_ok (snd p)) tr
  | NJoin t c ch es => (t <? 2 ^ 8) && coll_ok c && small ch && forallb node_ok ch && small es && forallb expr_ok es
  | NLimit c z => coll_ok c && fits I32 z
  | NMatch c es | NGroup c es | NSort c es => coll_ok c && small es && forallb expr_ok es
  | NFunction s a ch => small s && small a && forallb (fun n => n <? 2 ^ 16) a && small ch && forallb node_ok ch
  | NUpdate c from mc es lc z us _ =>
    coll_ok c && coll_ok from && coll_ok mc && small es && forallb expr_ok es && coll_ok lc && fits I32 z && small us && forallb upd_ok us
  end.
(** Parameters have different ids. *)
Fixpoint params_text (q : list (N * scalar)) : N :=
  match q with [] => 0 | x :: r => text_size (CScalar (snd x)) + params_text r end.
Definition params_ok (q : list (N * scalar)) : Prop :=
  small q = true /\ forallb (fun x => (fst x <? 2 ^ 16) && storable (CScalar (snd x))) q = true /\ NoDup (map fst q) /\ params_text q < 2 ^ 56.

(** * Statements that can be written: no null pointer, a match has a condition, the data are documents *)
Definition param_writable (f : expr -> bool) (p : param expr) : bool := match p with PExpr e => f e | _ => true end.
Fixpoint expr_writable (e : expr) : bool :=
  match e with
  | ENull => false
  | ECmp _ _ _ _ ch => forallb expr_writable ch
  | EAgg _ _ ps | EScalar _ _ ps => forallb (param_writable expr_writable) ps
  | ESort _ _ => true
  end.
Fixpoint upd_writable (u : upd) : bool :=
  match u with UNull => false | USet _ l => upd_writable l | UCalc _ l r => upd_writable l && upd_writable r | _ => true end.
Definition match_writable (es : list expr) : bool := match es with [] => false | e :: _ => expr_writable e end.
Fixpoint writable (v : node content) : bool :=
  match v with
  | NNull | NChunk _ => false
  | NAggregate _ ch | NInsert _ ch _ | NJoin _ _ ch _ => forallb writable ch
  | NDelete _ _ _ es _ _ | NMatch _ es => match_writable es
  | NGroup _ es | NSort _ es => forallb expr_writable es
  | NUpdate _ _ _ es _ _ us _ => match_writable es && forallb upd_writable us
  | _ => true
  end.

(** * Statements that come back as they were *)
(** Keys are texts or positions that are not negative, of the signed type. *)
Definition key_kept (k : key) : bool := match k with KInt z => (0 <=? z)%Z | KUint _ => false | _ => true end.
Definition key_none (k : key) : bool := match k with KNone => true | _ => false end.
Definition is_nil {A} (l : list A) : bool := match l with [] => true | _ => false end.
(** A collection has two names. *)
Definition coll_kept (c : coll) : bool := is_nil (uid c) && is_nil (schema_name c).
Definition coll_none (c : coll) : bool := coll_kept c && is_nil (database c) && is_nil (collection c).
(** Functions over rows have no parameter of the statement among their arguments. *)
Definition param_kept (f : expr -> bool) (p : param expr) : bool :=
  match p with PId _ => false | PKey k => key_kept k | PExpr e => f e end.
(** Conditions on conditions: AND, OR and NOT (components/expressions/forward.hpp 33-35). *)
Definition and_or_not (t : N) : bool := (t =? 10) || (t =? 11) || (t =? 12).
(** AND, OR and NOT have operands only; a comparison has a key and either a parameter or a second key. *)
Fixpoint expr_kept (e : expr) : bool :=
  match e with
  | ENull => false
  | ECmp t kl kr v ch =>
    if and_or_not t then key_none kl && key_none kr && (v =? 0) && forallb expr_kept ch
    else key_kept kl && key_kept kr && is_nil ch && (key_none kr || (v =? 0))
  | EAgg _ k ps | EScalar _ k ps => key_kept k && forallb (param_kept expr_kept) ps
  | ESort _ k => key_kept k
  end.
Fixpoint upd_kept (u : upd) : bool :=
  match u with
  | UNull => false
  | USet k l => key_kept k && upd_kept l
  | UGet k _ => key_kept k
  | UConst _ => true
  | UCalc _ l r => upd_kept l && upd_kept r
  end.
Definition match_kept (c : coll) (es : list expr) : bool := coll_kept c && match es with [e] => expr_kept e | _ => false end.
(** A table is created without columns, rows are deleted without a second collection, a join has no condition, a function
    no node below it, a match one condition. *)
Fixpoint kept (v : node content) : bool :=
  match v with
  | NNull | NChunk _ => false
  | NAggregate c ch => coll_kept c && forallb kept ch
  | NCreateColl c cols => coll_kept c && is_nil cols
  | NCreateDb c | NDropColl c | NDropDb c | NDropIndex c _ | NLimit c _ => coll_kept c
  | NCreateIndex _ c _ ks => coll_kept c && forallb key_kept ks
  | NData _ => true
  | NDelete c from mc es lc _ => coll_kept c && coll_none from && match_kept mc es && coll_kept lc
  | NInsert c ch tr => coll_kept c && forallb kept ch && forallb (fun p => key_kept (fst p) && key_kept (snd p)) tr
  | NJoin _ c ch es => coll_kept c && forallb kept ch && is_nil es
  | NMatch c es => match_kept c es
  | NGroup c es | NSort c es => coll_kept c && forallb expr_kept es
  | NFunction _ _ ch => is_nil ch
  | NUpdate c from mc es lc _ us _ => coll_kept c && coll_kept from && match_kept mc es && coll_kept lc && forallb upd_kept us
  end.

(** * What comes back in any case *)
Definition back_key (k : key) : key :=
  match k with
  | KInt z => if (0 <=? z)%Z then KInt z else KUint (Z.to_N (z + 2 ^ 32))
  | KUint n => KInt (if n <? 2 ^ 31 then Z.of_N n else (Z.of_N n - 2 ^ 32)%Z)
  | _ => k
  end.
Definition back_coll (c : coll) : coll := {| uid := []; database := database c; schema_name := []; collection := collection c |}.
Definition back_param (f : expr -> expr) (p : param expr) : param expr :=
  match p with
  | PId n => PKey (KInt (Z.of_N n))
  | PKey (KInt z) => if (0 <=? z)%Z then PKey (KInt z) else PId (Z.to_N (z mod 2 ^ 16))
  | PKey k => PKey (back_key k)
  | PExpr e => PExpr (f e)
  end.
Fixpoint back_expr (e : expr) : expr :=
  match e with
  | ENull => ENull
  | ECmp t kl kr v ch =>
    if and_or_not t then ECmp t KNone KNone 0 (map back_expr ch)
    else if key_none kr then ECmp t (back_key kl) KNone v [] else ECmp t (back_key kl) (back_key kr) 0 []
  | EAgg t k ps => EAgg t (back_key k) (map (back_param back_expr) ps)
  | EScalar t k ps => EScalar t (back_key k) (map (back_param back_expr) ps)
  | ESort o k => ESort o (back_key k)
  end.
Fixpoint back_upd (u : upd) : upd :=
  match u with
  | UNull => UNull
  | USet k l => USet (back_key k) (back_upd l)
  | UGet k side => UGet (back_key k) side
  | UConst id => UConst id
  | UCalc t l r => UCalc t (back_upd l) (back_upd r)
  end.
Definition back_match (es : list expr) : list expr := match es with [] => [] | e :: _ => [back_expr e] end.
Fixpoint back (v : node content) : node content :=
  match v with
  | NAggregate c ch => NAggregate (back_coll c) (map back ch)
  | NCreateColl c _ => NCreateColl (back_coll c) []
  | NCreateDb c => NCreateDb (back_coll c)
  | NCreateIndex t c s ks => NCreateIndex t (back_coll c) s (map back_key ks)
  | NData vs => NData (map all64 vs)
  | NDelete c _ mc es lc z => NDelete (back_coll c) no_coll (back_coll mc) (back_match es) (back_coll lc) z
  | NDropColl c => NDropColl (back_coll c)
  | NDropDb c => NDropDb (back_coll c)
  | NDropIndex c s => NDropIndex (back_coll c) s
  | NInsert c ch tr => NInsert (back_coll c) (map back ch) (map (fun p => (back_key (fst p), back_key (snd p))) tr)
  | NJoin t c ch _ => NJoin t (back_coll c) (map back ch) []
  | NLimit c z => NLimit (back_coll c) z
  | NMatch c es => NMatch (back_coll c) (back_match es)
  | NGroup c es => NGroup (back_coll c) (map back_expr es)
  | NSort c es => NSort (back_coll c) (map back_expr es)
  | NFunction s a _ => NFunction s a []
  | NUpdate c from mc es lc z us u =>
    NUpdate (back_coll c) (back_coll from) (back_coll mc) (back_match es) (back_coll lc) z (map back_upd us) u
  | _ => v
  end.
