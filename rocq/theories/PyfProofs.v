From Verif Require Import Bytes Outcome ByteOrd PyfModel PyfSpec.

Lemma plain_spec f : plain f = true -> f <> [] /\ get_compare_type f = Invalid.
Proof.
  unfold plain. destruct f as [|c w]; [discriminate|]. intros H. apply andb_prop in H. destruct H as [H1 H2].
  split; [discriminate|]. unfold get_compare_type.
  assert (E : enum_cast enumerators w = None).
  { apply negb_true_iff in H1. unfold reserved in H1. cbn [map existsb] in H1.
    unfold enumerators. cbn [enum_cast].
    assert (sym : forall a b, beqb a b = beqb b a).
    { intros a b. destruct (beqb a b) eqn:A, (beqb b a) eqn:B; auto.
      - apply beqb_eq in A. subst. rewrite (proj2 (beqb_eq b b) eq_refl) in B. discriminate.
      - apply beqb_eq in B. subst. rewrite (proj2 (beqb_eq a a) eq_refl) in A. discriminate. }
    repeat (apply orb_false_iff in H1; let A := fresh in destruct H1 as [A H1]; rewrite sym in A; rewrite A; clear A).
    reflexivity. }
  rewrite E. apply negb_true_iff in H2. cbn [existsb] in H2.
  apply orb_false_iff in H2. destruct H2 as [A H2]. apply orb_false_iff in H2. destruct H2 as [B H2].
  apply orb_false_iff in H2. destruct H2 as [C _]. rewrite A, B, C. reflexivity.
Qed.
Lemma operator_type t : comparison t = true -> get_compare_type (operator t) = t /\ is_union t = false /\ operator t <> [].
Proof. destruct t; intros H; try discriminate H; repeat split; try reflexivity; discriminate. Qed.

Section P.
Context {V : Type} (test : ctype -> list byte -> V -> bool).
Notation clause := (clause V). Notation expr := (expr V). Notation pc := (pc V).
Notation check := (check test). Notation holds := (holds test).

Definition clause_rect' (P : clause -> Prop)
  (h1 : forall f v, P (Is f v)) (h2 : forall f l, P (Compare f l)) (h3 : forall f l, P (Unless f l))
  (h4 : forall l, Forall (Forall P) l -> P (AllOf l)) (h5 : forall l, Forall (Forall P) l -> P (OneOf l))
  (h6 : forall q, Forall P q -> P (Neither q)) : forall c, P c :=
  fix go c :=
    let gos := fix gos (q : list clause) : Forall P q :=
      match q with [] => Forall_nil _ | x :: r => Forall_cons _ (go x) (gos r) end in
    let goss := fix goss (l : list (list clause)) : Forall (Forall P) l :=
      match l with [] => Forall_nil _ | x :: r => Forall_cons _ (gos x) (goss r) end in
    match c with
    | Is f v => h1 f v | Compare f l => h2 f l | Unless f l => h3 f l
    | AllOf l => h4 l (goss l) | OneOf l => h5 l (goss l) | Neither q => h6 q (gos q)
    end.

(** The two loops *)
Definition dict (real : list byte) := fix dict (l : list (list byte * pc)) : res (list expr) :=
  match l with
  | [] => Ok []
  | (k, x) :: r =>
    do inner <- (match real with [] => parse x k [] | _ => parse x real k end);
    do rest <- dict r;
    Ok ((if is_union (get_compare_type k) then [Expr (get_compare_type k) None None inner] else inner) ++ rest)
  end.
Definition array (real : list byte) := fix array (l : list pc) : res (list expr) :=
  match l with [] => Ok [] | x :: r => do es <- parse x real []; do rest <- array r; Ok (es ++ rest) end.
Lemma parse_dict l p w : parse (Dict l) p w = dict (fst (real_key p w)) l.
Proof. unfold dict. cbn [parse]. destruct (real_key p w) as [r t]. reflexivity. Qed.
Lemma parse_lst l p w : parse (Lst l) p w = array (fst (real_key p w)) l.
Proof. unfold array. cbn [parse]. destruct (real_key p w) as [r t]. reflexivity. Qed.

(** [es] is checked as [bs] *)
Definition gives (es : list expr) (bs : list bool) : Prop := map check es = map (@Ok bool) bs.
Lemma gives_app es es' bs bs' : gives es bs -> gives es' bs' -> gives (es ++ es') (bs ++ bs').
Proof. unfold gives. intros A B. rewrite !map_app. now rewrite A, B. Qed.
Lemma check_and k v es : forall bs, gives es bs -> check (Expr And k v es) = Ok (forallb (fun b => b) bs).
Proof.
  induction es as [|e es IH]; intros [|b bs] G; try discriminate G; [reflexivity|].
  injection G as G1 G2. specialize (IH bs G2). cbn [PyfModel.check] in IH |- *. rewrite G1. cbn [rbind forallb].
  destruct b; [exact IH|reflexivity].
Qed.
Lemma check_or k v es : forall bs, gives es bs -> check (Expr Or k v es) = Ok (existsb (fun b => b) bs).
Proof.
  induction es as [|e es IH]; intros [|b bs] G; try discriminate G; [reflexivity|].
  injection G as G1 G2. specialize (IH bs G2). cbn [PyfModel.check] in IH |- *. rewrite G1. cbn [rbind existsb].
  destruct b; [reflexivity|exact IH].
Qed.
Lemma check_not k v es b : gives es [b] -> check (Expr Not k v es) = Ok (negb b).
Proof. destruct es as [|e [|]]; intros G; try discriminate G. injection G as G. cbn [PyfModel.check]. now rewrite G. Qed.
Lemma check_normalize e b : check e = Ok b -> check (normalize e) = Ok b \/ exists k v cs, e = Expr Invalid k v cs.
Proof. destruct e as [[] k v cs]; intros H; try (right; now eauto); left; exact H. Qed.

Lemma real_plain f : plain f = true -> real_key f [] = (f, Invalid).
Proof. intros H. destruct (plain_spec f H) as [_ E]. unfold real_key. cbn [get_compare_type]. now rewrite E. Qed.
Lemma real_operator f t : comparison t = true -> real_key f (operator t) = (f, t).
Proof. intros H. destruct (operator_type t H) as (E & _). unfold real_key. rewrite E. destruct t; try discriminate H; reflexivity. Qed.
Lemma parse_is f (v : V) : plain f = true -> parse (Val v) f [] = Ok [Expr Eq (Some f) (Some v) []].
Proof. intros H. cbn [parse leaf]. rewrite (real_plain f H). reflexivity. Qed.
Lemma parse_op f t (v : V) : comparison t = true -> parse (Val v) f (operator t) = Ok [Expr t (Some f) (Some v) []].
Proof. intros H. cbn [parse leaf]. rewrite (real_operator f t H). destruct t; try discriminate H; reflexivity. Qed.

Definition ops (l : list (ctype * V)) : list (list byte * pc) := map (fun p => (operator (fst p), Val (snd p))) l.
Lemma dict_ops f l : f <> [] -> forallb (fun p => comparison (fst p)) l = true ->
  dict f (ops l) = Ok (map (fun p => Expr (fst p) (Some f) (Some (snd p)) []) l).
Proof.
  intros N. induction l as [|[t v] l IH]; intros H; [reflexivity|].
  cbn [forallb fst] in H. apply andb_prop in H. destruct H as [H1 H2].
  destruct f as [|c w]; [now destruct N|].
  change (ops ((t, v) :: l)) with ((operator t, @Val V v) :: ops l).
  cbn [dict]. rewrite (parse_op (c :: w) t v H1). cbn [rbind].
  change ((fix dict (l : list (list byte * pc)) : res (list expr) := _) (ops l)) with (dict (c :: w) (ops l)).
  rewrite (IH H2). cbn [rbind]. destruct (operator_type t H1) as (E & U & _). rewrite E, U. reflexivity.
Qed.
Lemma gives_ops f l : forallb (fun p => comparison (fst p)) l = true ->
  gives (map (fun p => Expr (fst p) (Some f) (Some (snd p)) []) l) (map (fun p : ctype * V => test (fst p) f (snd p)) l).
Proof.
  unfold gives. induction l as [|[t v] l IH]; intros H; [reflexivity|].
  cbn [forallb fst] in H. apply andb_prop in H. destruct H as [H1 H2].
  cbn [map fst snd]. rewrite (IH H2). destruct t; try discriminate H1; reflexivity.
Qed.
Lemma all_map {A} (g : A -> bool) l : forallb (fun b => b) (map g l) = forallb g l.
Proof. induction l as [|x l IH]; [reflexivity|]. cbn [map forallb]. now rewrite IH. Qed.

(** A clause below other conditions *)
Definition right (c : clause) (es : list expr) : Prop :=
  exists bs, gives es bs /\ forallb (fun b => b) bs = holds c /\ (single c = true -> bs = [holds c]).
Definition below (c : clause) : Prop :=
  simple c = true ->
  (exists es, dict [] [written c] = Ok es /\ right c es) /\
  (inner c = true -> exists es bs, parse (snd (written c)) (fst (written c)) [] = Ok es /\ gives es bs /\ forallb (fun b => b) bs = holds c) /\
  (forall l, c = OneOf l -> exists es bs, parse (snd (written c)) (fst (written c)) [] = Ok es /\ gives es bs /\ existsb (fun b => b) bs = holds c).

Lemma dict_cons real x r : dict real (x :: r) = do a <- dict real [x]; do b <- dict real r; Ok (a ++ b).
Proof.
  destruct x as [k x]. cbn [dict].
  destruct (match real with [] => parse x k [] | _ => parse x real k end) as [i|e]; cbn [rbind]; [|reflexivity].
  change ((fix dict (l : list (list byte * pc)) : res (list expr) := _) r) with (dict real r).
  destruct (dict real r); cbn [rbind]; [|reflexivity]. now rewrite app_nil_r.
Qed.
Lemma queries q : Forall below q -> forallb simple q = true ->
  exists es bs, dict [] (map written q) = Ok es /\ gives es bs /\ forallb (fun b => b) bs = forallb holds q.
Proof.
  induction 1 as [|c q B _ IH]; intros H; [exists [], []; repeat split|].
  cbn [forallb] in H. apply andb_prop in H. destruct H as [H1 H2].
  destruct (B H1) as ((es & E & bs & G & S & _) & _). destruct (IH H2) as (es' & bs' & E' & G' & S').
  exists (es ++ es'), (bs ++ bs'). cbn [map]. rewrite dict_cons, E. cbn [rbind]. rewrite E'. cbn [rbind].
  split; [reflexivity|]. split; [now apply gives_app|]. rewrite forallb_app, S, S'. reflexivity.
Qed.
Lemma one_query c : below c -> single c = true -> simple c = true ->
  exists es, dict [] (map written [c]) = Ok es /\ gives es [forallb holds [c]].
Proof.
  intros B S1 S2. destruct (B S2) as ((es & E & bs & G & _ & O) & _). exists es. split; [exact E|].
  rewrite (O S1) in G. cbn [forallb]. now rewrite andb_true_r.
Qed.
Lemma array_cons real x r : array real (x :: r) = do a <- parse x real []; do b <- array real r; Ok (a ++ b).
Proof. reflexivity. Qed.
Lemma all_of l : Forall (Forall below) l -> forallb (forallb simple) l = true ->
  exists es bs, array [] (map (fun q => Dict (map written q)) l) = Ok es /\ gives es bs /\
  forallb (fun b => b) bs = forallb (forallb holds) l.
Proof.
  induction 1 as [|q l B _ IH]; intros H; [exists [], []; repeat split|].
  cbn [forallb] in H. apply andb_prop in H. destruct H as [H1 H2].
  destruct (queries q B H1) as (es & bs & E & G & S). destruct (IH H2) as (es' & bs' & E' & G' & S').
  exists (es ++ es'), (bs ++ bs'). cbn [map]. rewrite array_cons, parse_dict. change (fst (real_key [] [])) with (@nil byte).
  rewrite E. cbn [rbind]. rewrite E'. cbn [rbind].
  split; [reflexivity|]. split; [now apply gives_app|]. rewrite forallb_app, S, S'. reflexivity.
Qed.
Lemma one_of l : Forall (Forall below) l ->
  forallb (fun q => match q with [c] => single c && simple c | _ => false end) l = true ->
  exists es bs, array [] (map (fun q => Dict (map written q)) l) = Ok es /\ gives es bs /\
  existsb (fun b => b) bs = existsb (forallb holds) l.
Proof.
  induction 1 as [|q l B _ IH]; intros H; [exists [], []; repeat split|].
  cbn [forallb] in H. apply andb_prop in H. destruct H as [H1 H2].
  destruct q as [|c [|]]; try discriminate H1. apply andb_prop in H1. destruct H1 as [O1 O2]. inversion B as [|? ? B1 _]; subst.
  destruct (one_query c B1 O1 O2) as (es & E & G). destruct (IH H2) as (es' & bs' & E' & G' & S').
  exists (es ++ es'), ([forallb holds [c]] ++ bs'). cbn [map] in E |- *. rewrite array_cons, parse_dict.
  change (fst (real_key [] [])) with (@nil byte). rewrite E. cbn [rbind]. rewrite E'. cbn [rbind].
  split; [reflexivity|]. split; [now apply gives_app|]. rewrite existsb_app, S'. cbn [existsb]. now rewrite orb_false_r.
Qed.
Lemma dict_one k x (es : list expr) : parse x k [] = Ok es ->
  dict [] [(k, x)] = Ok (if is_union (get_compare_type k) then [Expr (get_compare_type k) None None es] else es).
Proof. intros E. cbn [dict]. rewrite E. cbn [rbind]. now rewrite app_nil_r. Qed.

Lemma every c : below c.
Proof.
  apply (clause_rect' below); clear c.
  - intros f v P. cbn [simple] in P. destruct (plain_spec f P) as [N T]. cbn [written fst snd].
    pose proof (parse_is f v P) as E. split; [|split].
    + eexists. split; [rewrite (dict_one _ _ _ E), T; reflexivity|]. exists [holds (Is f v)].
      split; [reflexivity|]. split; [cbn [forallb]; apply andb_true_r|reflexivity].
    + intros _. exists [Expr Eq (Some f) (Some v) []], [holds (Is f v)]. split; [exact E|]. split; [reflexivity|].
      cbn [forallb]. apply andb_true_r.
    + discriminate.
  - intros f l P. cbn [simple] in P. apply andb_prop in P. destruct P as [P C]. destruct (plain_spec f P) as [N T].
    cbn [written fst snd]. fold (ops l).
    assert (E : parse (Dict (ops l)) f [] = Ok (map (fun p => Expr (fst p) (Some f) (Some (snd p)) []) l)).
    { rewrite parse_dict, (real_plain f P). cbn [fst]. now apply dict_ops. }
    pose proof (gives_ops f l C) as G. split; [|split].
    + eexists. split; [rewrite (dict_one _ _ _ E), T; reflexivity|].
      exists (map (fun p => test (fst p) f (snd p)) l). split; [exact G|]. split; [apply all_map|].
      intros S. cbn [single] in S. apply Nat.eqb_eq in S. destruct l as [|p [|]]; try discriminate S.
      cbn [map PyfSpec.holds forallb]. now rewrite andb_true_r.
    + intros _. eexists; eexists. split; [exact E|]. split; [exact G|]. apply all_map.
    + discriminate.
  - intros f l P. cbn [simple] in P. apply andb_prop in P. destruct P as [P L]. apply andb_prop in P. destruct P as [P C].
    destruct (plain_spec f P) as [N T]. apply Nat.eqb_eq in L. destruct l as [|p [|]]; try discriminate L. clear L.
    cbn [written fst snd]. fold (ops [p]).
    assert (E : parse (Dict [(str "$not", Dict (ops [p]))]) f [] =
      Ok [Expr Not None None [Expr (fst p) (Some f) (Some (snd p)) []]]).
    { rewrite parse_dict, (real_plain f P). cbn [fst]. destruct f as [|a w]; [now destruct N|].
      cbn [dict]. rewrite parse_dict. change (fst (real_key (a :: w) (str "$not"))) with (a :: w).
      rewrite (dict_ops (a :: w) [p] N C). reflexivity. }
    pose proof (gives_ops f [p] C) as G. cbn [map] in G.
    assert (G' : gives [Expr Not None None [Expr (fst p) (Some f) (Some (snd p)) []]] [holds (Unless f [p])]).
    { unfold gives. cbn [map]. rewrite (check_not None None _ _ G). cbn [PyfSpec.holds forallb]. now rewrite andb_true_r. }
    split; [|split].
    + eexists. split; [rewrite (dict_one _ _ _ E), T; reflexivity|]. exists [holds (Unless f [p])].
      split; [exact G'|]. split; [cbn [forallb]; apply andb_true_r|reflexivity].
    + intros _. eexists; eexists. split; [exact E|]. split; [exact G'|]. cbn [forallb]. apply andb_true_r.
    + discriminate.
  - intros l B P. cbn [simple] in P. destruct (all_of l B P) as (es & bs & E & G & S). cbn [written fst snd].
    assert (E' : parse (Lst (map (fun q => Dict (map written q)) l)) (str "$and") [] = Ok es).
    { rewrite parse_lst. exact E. }
    split; [|split].
    + exists [Expr And None None es]. split; [exact (dict_one _ _ _ E')|]. exists [holds (AllOf l)].
      split; [unfold gives; cbn [map]; now rewrite (check_and None None es bs G), S|]. split; [cbn [forallb]; apply andb_true_r|reflexivity].
    + intros _. exists es, bs. repeat split; assumption.
    + discriminate.
  - intros l B P. cbn [simple] in P. destruct (one_of l B P) as (es & bs & E & G & S). cbn [written fst snd].
    assert (E' : parse (Lst (map (fun q => Dict (map written q)) l)) (str "$or") [] = Ok es).
    { rewrite parse_lst. exact E. }
    split; [|split].
    + exists [Expr Or None None es]. split; [exact (dict_one _ _ _ E')|]. exists [holds (OneOf l)].
      split; [unfold gives; cbn [map]; now rewrite (check_or None None es bs G), S|]. split; [cbn [forallb]; apply andb_true_r|reflexivity].
    + discriminate.
    + intros l' _. exists es, bs. repeat split; assumption.
  - intros q B P. cbn [simple] in P. destruct q as [|c [|]]; try discriminate P. apply andb_prop in P. destruct P as [O1 O2].
    inversion B as [|? ? B1 _]; subst. destruct (one_query c B1 O1 O2) as (es & E & G). cbn [written fst snd].
    assert (E' : parse (Dict (map written [c])) (str "$not") [] = Ok es). { rewrite parse_dict. exact E. }
    split; [|split].
    + exists [Expr Not None None es]. split; [exact (dict_one _ _ _ E')|]. exists [holds (Neither [c])].
      split; [unfold gives; cbn [map]; now rewrite (check_not None None es _ G)|]. split; [cbn [forallb]; apply andb_true_r|reflexivity].
    + discriminate.
    + discriminate.
Qed.

Lemma outer q : forallb (fun c => simple c && inner c) q = true ->
  exists es bs, parse_all (map written q) = Ok es /\ gives es bs /\ forallb (fun b => b) bs = forallb holds q.
Proof.
  induction q as [|c q IH]; intros H; [exists [], []; repeat split|].
  cbn [forallb] in H. apply andb_prop in H. destruct H as [H1 H2]. apply andb_prop in H1. destruct H1 as [H0 H1].
  destruct (every c H0) as (_ & B & _). destruct (B H1) as (es & bs & E & G & S).
  destruct (IH H2) as (es' & bs' & E' & G' & S'). exists (es ++ es'), (bs ++ bs'). cbn [map].
  destruct (written c) as [k x]. cbn [parse_all]. cbn [fst snd] in E. rewrite E. cbn [rbind]. rewrite E'. cbn [rbind].
  split; [reflexivity|]. split; [now apply gives_app|]. cbn [forallb]. rewrite forallb_app, S, S'. reflexivity.
Qed.
(** Whatever is appended has a type *)
Definition pc_rect' (P : pc -> Prop) (h1 : forall v, P (Val v)) (h2 : forall l, Forall P l -> P (Lst l))
  (h3 : forall l, Forall (fun f => P (snd f)) l -> P (Dict l)) : forall c, P c :=
  fix go c :=
    match c with
    | Val v => h1 v
    | Lst l => h2 l ((fix gos (l : list pc) : Forall P l := match l with [] => Forall_nil _ | x :: r => Forall_cons _ (go x) (gos r) end) l)
    | Dict l => h3 l ((fix gos (l : list (list byte * pc)) : Forall (fun f => P (snd f)) l :=
        match l with [] => Forall_nil _ | x :: r => Forall_cons _ (go (snd x)) (gos r) end) l)
    end.
Definition typed (e : expr) : Prop := normalize e = e.
Lemma leaf_typed n p w v es : leaf n p w v = Ok es -> Forall typed es.
Proof.
  destruct n; [discriminate|]. cbn [leaf]. destruct (real_key p w) as [r t]. destruct (if is_union t then leaf n r [] v else Ok []) as [i|]; [|discriminate].
  cbn [rbind]. intros E. injection E as <-. constructor; [|constructor]. unfold typed. destruct t; reflexivity.
Qed.
Lemma parse_typed c : forall p w es, parse c p w = Ok es -> Forall typed es.
Proof.
  apply (pc_rect' (fun c => forall p w es, parse c p w = Ok es -> Forall typed es)); clear c.
  - intros v p w es E. cbn [parse] in E. destruct (real_key p w). exact (leaf_typed _ _ _ _ _ E).
  - intros l H p w es. rewrite parse_lst. generalize (fst (real_key p w)). intros real. revert es.
    induction H as [|x r H _ IH]; intros es E; [injection E as <-; constructor|]. rewrite array_cons in E.
    destruct (parse x real []) as [a|] eqn:A; [|discriminate E]. cbn [rbind] in E.
    destruct (array real r) as [b|]; [|discriminate E]. injection E as <-. apply Forall_app. split; [exact (H _ _ _ A)|now apply IH].
  - intros l H p w es. rewrite parse_dict. generalize (fst (real_key p w)). intros real. revert es.
    induction H as [|[k x] r H _ IH]; intros es E; [injection E as <-; constructor|]. cbn [snd] in H. cbn [dict] in E.
    change ((fix dict (l : list (list byte * pc)) : res (list expr) := _) r) with (dict real r) in E.
    destruct (match real with [] => parse x k [] | _ => parse x real k end) as [a|] eqn:A; [|discriminate E]. cbn [rbind] in E.
    destruct (dict real r) as [b|]; [|discriminate E]. injection E as <-. apply Forall_app. split; [|now apply IH].
    destruct (is_union (get_compare_type k)) eqn:U.
    + constructor; [|constructor]. unfold typed. destruct (get_compare_type k); try discriminate U; reflexivity.
    + destruct real; exact (H _ _ _ A).
Qed.
Lemma all_typed l : forall es, parse_all l = Ok es -> Forall typed es.
Proof.
  induction l as [|[k x] l IH]; intros es E; [injection E as <-; constructor|]. cbn [parse_all] in E.
  destruct (parse x k []) as [a|] eqn:A; [|discriminate E]. cbn [rbind] in E.
  destruct (parse_all l) as [b|]; [|discriminate E]. injection E as <-. apply Forall_app. split; [exact (parse_typed _ _ _ _ A)|now apply IH].
Qed.
Lemma selected_is t es bs b : Forall typed es -> gives es bs ->
  (t = Or -> existsb (fun b => b) bs = b) -> (t = And -> forallb (fun b => b) bs = b) -> t = And \/ t = Or ->
  (do e <- (match es with [c] => Ok (normalize c) | _ => Ok (Expr t None None es) end); check e) = Ok b.
Proof.
  intros T G HO HA HT.
  assert (C : check (Expr t None None es) = Ok b).
  { destruct HT as [-> | ->]; [rewrite (check_and None None es bs G), HA|rewrite (check_or None None es bs G), HO]; reflexivity. }
  destruct es as [|e [|]]; [exact C| |exact C]. cbn [rbind].
  destruct bs as [|b1 [|]]; try discriminate G. injection G as G.
  inversion T as [|? ? T1 _]; subst. unfold typed in T1. rewrite T1, G. f_equal.
  destruct HT as [-> | ->]; [rewrite <- HA by reflexivity; cbn [forallb]; now rewrite andb_true_r|
      rewrite <- HO by reflexivity; cbn [existsb]; now rewrite orb_false_r].
Qed.
Theorem selected_right q : outermost q = true -> selected test (map written q) = Ok (forallb holds q).
Proof.
  intros H.
  assert (D : (exists l, q = [OneOf l] /\ simple (OneOf l) = true) \/ forallb (fun c => simple c && inner c) q = true).
  { destruct q as [|[] [|]]; try (right; exact H). left. eexists. split; [reflexivity|exact H]. }
  destruct D as [(l & -> & S)|S].
  - destruct (every _ S) as (_ & _ & B). destruct (B l eq_refl) as (es & bs & E & G & W). cbn [written fst snd] in E.
    unfold selected, find_condition. cbn [map written parse_all]. rewrite E. cbn [rbind]. rewrite app_nil_r.
    change (get_compare_type (str "$or")) with Or. cbn [is_union].
    refine (selected_is Or es bs _ (parse_typed _ _ _ _ E) G _ _ (or_intror eq_refl)); [|discriminate].
    intros _. rewrite W. cbn [forallb]. now rewrite andb_true_r.
  - destruct (outer q S) as (es & bs & E & G & W). unfold selected, find_condition. rewrite E. cbn [rbind].
    assert (K : is_union (match map written q with [(k, _)] => get_compare_type k | _ => And end) = false \/
                match map written q with [(k, _)] => get_compare_type k | _ => And end = And).
    { destruct q as [|c [|c' q]]; [now right| |right; cbn [map]; destruct (written c); reflexivity].
      cbn [forallb] in S. rewrite andb_true_r in S. apply andb_prop in S. destruct S as [S1 S2].
      destruct c; try discriminate S2; cbn [map written]; [left|left|left|now right]; cbn [simple] in S1.
      - now rewrite (proj2 (plain_spec _ S1)).
      - apply andb_prop in S1. now rewrite (proj2 (plain_spec _ (proj1 S1))).
      - apply andb_prop in S1. destruct S1 as [S1 _]. apply andb_prop in S1. now rewrite (proj2 (plain_spec _ (proj1 S1))). }
    assert (K' : (if is_union (match map written q with [(k, _)] => get_compare_type k | _ => And end)
      then match map written q with [(k, _)] => get_compare_type k | _ => And end else And) = And).
    { destruct K as [-> | ->]; reflexivity. }
    rewrite K'. refine (selected_is And es bs _ (all_typed _ _ E) G _ _ (or_introl eq_refl)); [discriminate|now intros _].
Qed.

(** A value needs no more calls *)
Lemma leaf_ends p w (v : V) : exists es, leaf 3 p w v = Ok es.
Proof.
  cbn [leaf]. destruct (real_key p w) as [r t] eqn:R. destruct (is_union t); [|now eexists].
  destruct (real_key r []) as [r' t'] eqn:R'. destruct (is_union t') eqn:U; [|now eexists].
  assert (r' = []) as ->.
  { unfold real_key in R'. cbn [get_compare_type] in R'. destruct (get_compare_type r); injection R' as <- <-; try discriminate U; reflexivity. }
  now eexists.
Qed.
Theorem parse_ends c : forall p w, exists es, parse (c : pc) p w = Ok es.
Proof.
  apply (pc_rect' (fun c => forall p w, exists es, parse c p w = Ok es)); clear c.
  - intros v p w. cbn [parse]. destruct (real_key p w). apply leaf_ends.
  - intros l H p w. rewrite parse_lst. generalize (fst (real_key p w)). intros real.
    induction H as [|x r H _ [b E]]; [now eexists|]. rewrite array_cons. destruct (H real []) as [a A]. rewrite A, E. now eexists.
  - intros l H p w. rewrite parse_dict. generalize (fst (real_key p w)). intros real.
    induction H as [|[k x] r H _ [b E]]; [now eexists|]. cbn [snd] in H. cbn [dict].
    change ((fix dict (l : list (list byte * pc)) : res (list expr) := _) r) with (dict real r). rewrite E.
    destruct real; [destruct (H k []) as [a A]|destruct (H (b0 :: real) k) as [a A]]; rewrite A; now eexists.
Qed.
Theorem find_ends l : exists e, find_condition (l : list (list byte * pc)) = Ok e.
Proof.
  assert (A : exists es, parse_all l = Ok es).
  { induction l as [|[k x] l [es E]]; [now eexists|]. cbn [parse_all]. destruct (parse_ends x k []) as [a A]. rewrite A, E. now eexists. }
  destruct A as [es A]. unfold find_condition. rewrite A. cbn [rbind]. destruct es as [|? [|]]; now eexists.
Qed.
End P.
