(** Proofs about the buffer manager. *)
From Coq Require Import List ZArith NArith Bool Lia.
From Verif Require Import Bytes Outcome.
From Verif Require Import PoolModel PoolSpec.
Import ListNotations.
Local Open Scope Z_scope.

Definition total (hs : list handle) : Z := fold_right (fun h s => Z.of_N (charge h) + s) 0 hs.

Lemma room_size n : room n = allocation_size n.
Proof.
  unfold room, allocation_size. set (m := (n + 8)%N). replace (8 + n + 4095)%N with (m + 4095)%N by (unfold m; lia).
  pose proof (N.div_mod m 4096 ltac:(lia)) as D. pose proof (N.mod_lt m 4096 ltac:(lia)) as L.
  destruct (N.eqb_spec (m mod 4096) 0) as [Z0 | NZ].
  - rewrite Z0 in D. replace ((m + 4095) / 4096)%N with (m / 4096)%N; [lia | ].
    apply (N.div_unique _ _ _ 4095%N); lia.
  - replace ((m + 4095) / 4096)%N with (m / 4096 + 1)%N; [lia | ].
    apply (N.div_unique _ _ _ (m mod 4096 - 1)%N); lia.
Qed.

(** A handle and the piece it stands for. *)
Record hrel (h : handle) (b : piece) : Prop := {
  H_id : hid h = pid b;
  H_kind : hkind h = pkind b;
  H_size : size h = psize b;
  H_pins : 0 <= pins b;
  H_readers : if kind_eqb (hkind h) Tiny then pins b <= readers h else readers h = pins b;
  H_data : match data h with
           | None => charge h = 0%N /\ hkind h <> Tiny /\ pins b = 0
           | Some d => charge h = size h /\ forall c, content b = Some c -> d = c
           end;
  H_file : hkind h = File -> content b = Some (stored h) }.

Definition waiting (h : handle) : Prop := loaded h = true /\ readers h <= 0 /\ hkind h <> Tiny.

Record K (p : pool) (w : world) (e : Z) (Q : list (nat * N)) : Prop := {
  K_rel : Forall2 hrel (handles p) (pieces w);
  K_ids : NoDup (map hid (handles p));
  K_lt : forall h, In h (handles p) -> (hid h < next p)%nat;
  K_sum : used p + cached p = total (handles p) + Z.of_N (reserved w) + e;
  K_cache : Z.abs (cached p) < threshold;
  K_comp : forall h, In h (handles p) -> waiting h -> In (hid h, seq h) Q;
  K_q : forall n, In n Q -> (fst n < next p)%nat /\ forall h, In h (handles p) -> hid h = fst n -> hkind h <> Tiny }.

(** ** Lists of handles *)
Lemma get_some i hs h : get i hs = Some h -> In h hs /\ hid h = i.
Proof. intro H. apply find_some in H. destruct H as (I & E). split; [exact I | ]. now apply Nat.eqb_eq. Qed.
Lemma get_in hs h : NoDup (map hid hs) -> In h hs -> get (hid h) hs = Some h.
Proof.
  induction hs as [ | x hs IH]; intros N I; [destruct I | ]. cbn [map] in N. inversion N as [ | ? ? Ni N']. subst.
  unfold get. cbn [find]. destruct (Nat.eqb_spec (hid x) (hid h)) as [E | E].
  - destruct I as [-> | I]; [reflexivity | ]. exfalso. apply Ni. rewrite E. now apply in_map.
  - destruct I as [-> | I]; [congruence | ]. now apply IH.
Qed.
Lemma same_handle hs h h' : NoDup (map hid hs) -> In h hs -> In h' hs -> hid h = hid h' -> h = h'.
Proof.
  intros N I I' E. pose proof (get_in hs h N I) as G. pose proof (get_in hs h' N I') as G'. rewrite E, G' in G. congruence.
Qed.
Lemma on_ids i f hs : (forall h, hid (f h) = hid h) -> map hid (on i f hs) = map hid hs.
Proof.
  intro H. unfold on. rewrite map_map. apply map_ext. intro h. destruct (Nat.eqb (hid h) i); [apply H | reflexivity].
Qed.
Lemma in_on i f hs h : In h (on i f hs) -> (exists x, In x hs /\ hid x = i /\ h = f x) \/ (In h hs /\ hid h <> i).
Proof.
  unfold on. intro I. apply in_map_iff in I. destruct I as (x & E & I). destruct (Nat.eqb_spec (hid x) i) as [F | F].
  - left. exists x. auto.
  - right. subst. auto.
Qed.
Lemma total_on f hs h : NoDup (map hid hs) -> In h hs ->
  total (on (hid h) f hs) = total hs - Z.of_N (charge h) + Z.of_N (charge (f h)).
Proof.
  induction hs as [ | x hs IH]; intros N I; [destruct I | ]. cbn [map] in N. inversion N as [ | ? ? Ni N']. subst.
  unfold on, total in *. cbn [map fold_right]. destruct (Nat.eqb_spec (hid x) (hid h)) as [E | E].
  - assert (x = h). { destruct I as [-> | I]; [reflexivity | ]. exfalso. apply Ni. rewrite E. now apply in_map. } subst x.
    rewrite map_ext_in with (g := fun x => x).
    + rewrite map_id. lia.
    + intros y Iy. destruct (Nat.eqb_spec (hid y) (hid h)) as [F | F]; [ | reflexivity]. exfalso. apply Ni. rewrite <- F. now apply in_map.
  - destruct I as [-> | I]; [congruence | ]. rewrite (IH N' I). lia.
Qed.
Lemma total_app a b : total (a ++ b) = total a + total b.
Proof. induction a as [ | x a IH]; cbn [app total fold_right]; [reflexivity | ]. fold (total (a ++ b)) (total a). lia. Qed.
Lemma total_filter hs h : NoDup (map hid hs) -> In h hs ->
  total (filter (fun x => negb (Nat.eqb (hid x) (hid h))) hs) = total hs - Z.of_N (charge h).
Proof.
  induction hs as [ | x hs IH]; intros N I; [destruct I | ]. cbn [map] in N. inversion N as [ | ? ? Ni N']. subst.
  cbn [filter]. destruct (Nat.eqb_spec (hid x) (hid h)) as [E | E]; cbn [negb].
  - assert (x = h). { destruct I as [-> | I]; [reflexivity | ]. exfalso. apply Ni. rewrite E. now apply in_map. } subst x.
    assert (F : filter (fun y => negb (Nat.eqb (hid y) (hid h))) hs = hs).
    { clear - Ni. induction hs as [ | y hs IH]; [reflexivity | ]. cbn [filter map In] in *.
      destruct (Nat.eqb_spec (hid y) (hid h)); [exfalso; apply Ni; now left | ]. cbn [negb]. f_equal. apply IH. tauto. }
    rewrite F. cbn [total fold_right]. fold (total hs). lia.
  - destruct I as [-> | I]; [congruence | ]. cbn [total fold_right]. fold (total hs) (total (filter (fun y => negb (Nat.eqb (hid y) (hid h))) hs)).
    rewrite (IH N' I). lia.
Qed.
Lemma total_nonneg hs : 0 <= total hs.
Proof. induction hs as [ | x hs IH]; cbn [total fold_right]; [lia | ]. fold (total hs). lia. Qed.

Lemma forall2_in_l {A B} (R : A -> B -> Prop) l m x : Forall2 R l m -> In x l -> exists y, In y m /\ R x y.
Proof.
  induction 1 as [ | a b l m H F IH]; intro I; [destruct I | ]. destruct I as [-> | I]; [exists b; split; [now left | exact H] | ].
  destruct (IH I) as (y & Iy & Hy). exists y. split; [now right | exact Hy].
Qed.
Lemma on_rel i f g hs bs : Forall2 hrel hs bs ->
  (forall h b, In h hs -> In b bs -> hid h = i -> hrel h b -> hrel (f h) (g b)) ->
  Forall2 hrel (on i f hs) (map (fun b => if Nat.eqb (pid b) i then g b else b) bs).
Proof.
  induction 1 as [ | h b hs bs H F IH]; intro G; [constructor | ]. cbn [on map]. constructor.
  - rewrite <- (H_id _ _ H). destruct (Nat.eqb_spec (hid h) i); [ | exact H]. apply G; auto; now left.
  - apply IH. intros; apply G; auto; now right.
Qed.
Lemma on_rel_l i f hs bs : Forall2 hrel hs bs ->
  (forall h b, In h hs -> hid h = i -> hrel h b -> hrel (f h) b) -> Forall2 hrel (on i f hs) bs.
Proof.
  induction 1 as [ | h b hs bs H F IH]; intro G; [constructor | ]. cbn [on map]. constructor.
  - destruct (Nat.eqb_spec (hid h) i); [ | exact H]. apply G; auto; now left.
  - apply IH. intros; apply G; auto; now right.
Qed.
Lemma rel_get hs bs i : Forall2 hrel hs bs ->
  match get i hs, List.find (fun b => Nat.eqb (pid b) i) bs with
  | Some h, Some b => hrel h b
  | None, None => True
  | _, _ => False
  end.
Proof.
  induction 1 as [ | h b hs bs H F IH]; [exact I | ]. unfold get. cbn [find]. rewrite <- (H_id _ _ H).
  destruct (Nat.eqb (hid h) i); [exact H | exact IH].
Qed.

(** ** Memory *)
Lemma add_memory_sum p n : used (add_memory p n) + cached (add_memory p n) = used p + cached p + n.
Proof.
  unfold add_memory, charge_memory. destruct (Z.abs n <? threshold); [ | cbn; lia].
  destruct (threshold <=? Z.abs (cached p + n)); cbn; lia.
Qed.
Lemma add_memory_cache p n : Z.abs (cached p) < threshold -> Z.abs (cached (add_memory p n)) < threshold.
Proof.
  intro H. unfold add_memory, charge_memory. destruct (Z.abs n <? threshold); [ | cbn; lia].
  destruct (Z.leb_spec threshold (Z.abs (cached p + n))); cbn; [reflexivity | lia].
Qed.
Lemma add_memory_rest p n : handles (add_memory p n) = handles p /\ next (add_memory p n) = next p /\
  queues (add_memory p n) = queues p /\ maximum (add_memory p n) = maximum p.
Proof. unfold add_memory. destruct (charge_memory _ _ _). auto. Qed.

Lemma add_memory_K p w e Q n : K p w e Q -> K (add_memory p n) w (e + n) Q.
Proof.
  intros [H1 H2 H3 H4 H5 H6 H7]. destruct (add_memory_rest p n) as (E1 & E2 & E3 & E4).
  constructor; rewrite ?E1, ?E2; try assumption.
  - rewrite add_memory_sum. lia.
  - now apply add_memory_cache.
Qed.

Lemma rel_waiting h b : hrel h b -> waiting h -> pins b = 0.
Proof.
  intros R (_ & W & T). pose proof (H_readers _ _ R) as X. pose proof (H_pins _ _ R). destruct (kind_eqb (hkind h) Tiny) eqn:E; [ | lia].
  exfalso. apply T. destruct (hkind h); try discriminate. reflexivity.
Qed.

Lemma try_get_some hs n h : try_get hs n = Some h -> In h hs /\ hid h = fst n /\ seq h = snd n /\ loaded h = true /\ readers h <= 0.
Proof.
  unfold try_get. destruct (get (fst n) hs) as [x | ] eqn:G; [ | discriminate].
  destruct (N.eqb_spec (seq x) (snd n)) as [E | ]; [ | discriminate]. unfold can_unload. destruct (loaded x) eqn:L; [ | discriminate].
  destruct (Z.ltb_spec 0 (readers x)); [discriminate | ]. cbn [negb andb]. intro Ht. injection Ht as <-.
  apply get_some in G. destruct G. auto 6.
Qed.

Lemma skip_K p w e n Q : K p w e (n :: Q) -> try_get (handles p) n = None -> K p w e Q.
Proof.
  intros [H1 H2 H3 H4 H5 H6 H7] T. constructor; try assumption.
  - intros h I W. destruct (H6 h I W) as [E | J]; [ | exact J]. exfalso. destruct W as (L & Rd & _).
    unfold try_get in T. rewrite E in T. cbn [fst snd] in T. rewrite (get_in _ _ H2 I), N.eqb_refl in T.
    unfold can_unload in T. rewrite L in T. destruct (Z.ltb_spec 0 (readers h)); [lia | discriminate].
  - intros x I. apply H7. now right.
Qed.

Lemma unload_K p w e n Q h : K p w e (n :: Q) -> try_get (handles p) n = Some h ->
  K (unload p h) w e Q /\ next (unload p h) = next p /\ maximum (unload p h) = maximum p /\
  used (unload p h) + cached (unload p h) = used p + cached p - Z.of_N (size h).
Proof.
  intros [H1 H2 H3 H4 H5 H6 H7] T. apply try_get_some in T. destruct T as (I & E & S & L & Rd).
  assert (NT : hkind h <> Tiny) by (apply (H7 n (or_introl eq_refl)); assumption).
  destruct (forall2_in_l _ _ _ _ H1 I) as (b & Ib & Rb).
  assert (Ch : charge h = size h).
  { pose proof (H_data _ _ Rb) as D. unfold loaded in L. destruct (data h); [apply D | discriminate]. }
  destruct (add_memory_rest p (- Z.of_N (charge h))) as (E1 & E2 & E3 & E4).
  unfold unload, set_handles. cbn [handles next maximum used cached]. split; [ | split; [exact E2 | split; [exact E4 | ]]].
  - constructor; cbn [handles next used cached].
    + apply on_rel_l; [exact H1 | ]. intros x c Ix Ex R. assert (x = h) by (apply (same_handle _ _ _ H2 Ix I Ex)). subst x.
      pose proof (rel_waiting h c R (conj L (conj Rd NT))) as P0.
      destruct R as [R1 R2 R3 R4 R5 R6 R7]. constructor; cbn [emptied hid hkind size readers data charge stored]; auto.
    + rewrite on_ids; [exact H2 | reflexivity].
    + intros x Ix. rewrite E2. apply in_on in Ix. destruct Ix as [(y & Iy & _ & ->) | (Ix & _)]; cbn [emptied hid]; auto.
    + rewrite (total_on emptied _ h H2 I). cbn [emptied charge]. rewrite add_memory_sum. lia.
    + now apply add_memory_cache.
    + intros x Ix W. apply in_on in Ix. destruct Ix as [(y & _ & _ & ->) | (Ix & Nx)].
      * destruct W as (Lx & _). discriminate.
      * destruct (H6 x Ix W) as [Ex | J]; [ | exact J]. exfalso. apply Nx. subst n. now symmetry.
    + intros x Ix. destruct (H7 x (or_intror Ix)) as (Y & Z). split; [now rewrite E2 | ].
      intros y Iy Ey. apply in_on in Iy. destruct Iy as [(z & Iz & _ & ->) | (Iy & _)]; cbn [emptied hid hkind] in *; auto.
  - rewrite add_memory_sum. lia.
Qed.

Definition mem (p : pool) : Z := used p + cached p.
Lemma evict_queue_ok reuse extra limit w e rest : forall q p found buf q' p',
  K p w e (q ++ rest) -> evict_queue q p reuse extra limit = (found, buf, q', p') ->
  K p' w e (q' ++ rest) /\ next p' = next p /\ maximum p' = maximum p /\ mem p' <= mem p /\
  (if found then within p' limit = true \/ (reuse = true /\ mem p' <= mem p - Z.of_N extra)
   else q' = [] /\ (within p limit = false -> within p' limit = false)).
Proof.
  induction q as [ | n q IH]; intros p found buf q' p' Hk E; cbn [evict_queue] in E.
  - injection E as <- <- <- <-. split; [exact Hk | ]. unfold mem. repeat split; auto; lia.
  - destruct (try_get (handles p) n) as [h | ] eqn:T.
    + destruct (unload_K p w e n (q ++ rest) h Hk T) as (K' & N' & M' & S').
      destruct (reuse && N.eqb (size h) extra) eqn:B.
      * injection E as <- <- <- <-. apply andb_prop in B as (B0 & B). apply N.eqb_eq in B. subst extra.
        split; [exact K' | ]. unfold mem. split; [exact N' | split; [exact M' | split; [lia | right; split; [exact B0 | lia]]]].
      * destruct (within (unload p h) limit) eqn:W.
        -- injection E as <- <- <- <-. split; [exact K' | ]. unfold mem.
           split; [exact N' | split; [exact M' | split; [lia | left; exact W]]].
        -- destruct (IH _ _ _ _ _ K' E) as (A1 & A2 & A3 & A4 & A5). unfold mem in *. rewrite A2, A3.
           split; [exact A1 | ]. split; [exact N' | split; [exact M' | split; [lia | ]]]. destruct found; [destruct A5 as [A5 | (A5 & A6)]; [now left | right; split; [exact A5 | lia]] | ].
           destruct A5 as (A5 & A6). split; [exact A5 | ]. intros _. now apply A6.
    + apply (IH p found buf q' p'); [ | exact E]. eapply skip_K; eassumption.
Qed.

Lemma evict_ok reuse extra limit w : forall qs p ok buf qs' p',
  K p w 0 (concat qs) -> evict qs p reuse extra limit = (ok, buf, qs', p') ->
  K p' w (if ok then Z.of_N extra else 0) (concat qs') /\ next p' = next p /\ maximum p' = maximum p /\ length qs' = length qs /\
  (if ok then mem p' < Z.of_N limit + threshold \/ (reuse = true /\ mem p' <= mem p)
   else mem p' <= mem p /\ concat qs' = [] /\
        (qs <> [] -> Z.of_N limit < total (handles p') + Z.of_N (reserved w) + Z.of_N extra + threshold)).
Proof.
  induction qs as [ | q qs IH]; intros p ok buf qs' p' Hk E; cbn [evict] in E.
  - injection E as <- <- <- <-. split; [exact Hk | ]. unfold mem. repeat split; auto; try lia. congruence.
  - set (p1 := add_memory p (Z.of_N extra)) in *.
    assert (K1 : K p1 w (Z.of_N extra) (q ++ concat qs)) by (apply (add_memory_K _ _ _ _ (Z.of_N extra)) in Hk; exact Hk).
    destruct (add_memory_rest p (Z.of_N extra)) as (E1 & E2 & E3 & E4). fold p1 in E1, E2, E3, E4.
    assert (M1 : mem p1 = mem p + Z.of_N extra) by (unfold mem, p1; apply add_memory_sum).
    destruct (within p1 limit) eqn:W.
    + injection E as <- <- <- <-. split; [exact K1 | ]. rewrite E2, E4. repeat split; auto. left.
      unfold within in W. apply Z.leb_le in W. pose proof (K_cache _ _ _ _ K1). unfold mem. lia.
    + destruct (evict_queue q p1 reuse extra limit) as (((found & b1) & q1) & p2) eqn:Eq.
      destruct (evict_queue_ok reuse extra limit w (Z.of_N extra) (concat qs) _ _ _ _ _ _ K1 Eq) as (K2 & N2 & X2 & M2 & F2).
      destruct found.
      * injection E as <- <- <- <-. cbn [concat]. split; [exact K2 | ]. rewrite N2, X2, E2, E4. repeat split; auto.
        destruct F2 as [F2 | (F2 & F3)]; [left | right; split; [exact F2 | lia]].
        unfold within in F2. apply Z.leb_le in F2. pose proof (K_cache _ _ _ _ K2). unfold mem. lia.
      * destruct F2 as (-> & F2). specialize (F2 W).
        set (p3 := add_memory p2 (- Z.of_N extra)) in *.
        assert (K3 : K p3 w 0 (concat qs)).
        { apply (add_memory_K _ _ _ _ (- Z.of_N extra)) in K2. cbn [app] in K2.
          replace (Z.of_N extra + - Z.of_N extra) with 0 in K2 by lia. exact K2. }
        destruct (add_memory_rest p2 (- Z.of_N extra)) as (G1 & G2 & G3 & G4). fold p3 in G1, G2, G3, G4.
        assert (M3 : mem p3 = mem p2 - Z.of_N extra) by (unfold mem, p3; rewrite add_memory_sum; lia).
        destruct (evict qs p3 reuse extra limit) as (((ok3 & b3) & qs3) & p4) eqn:Er.
        injection E as <- <- <- <-. destruct (IH _ _ _ _ _ K3 Er) as (A1 & A2 & A3 & A4 & A5).
        cbn [concat app length]. split; [exact A1 | ]. rewrite A2, A3, G2, G4, N2, X2, E2, E4. repeat split; auto.
        destruct ok3.
        -- destruct A5 as [A5 | (A5 & A6)]; [left; exact A5 | right; split; [exact A5 | lia]].
        -- destruct A5 as (A5 & A6 & A7). split; [lia | ]. split; [exact A6 | ]. intros _.
           destruct qs as [ | q0 qs0]; [ | apply A7; discriminate].
           cbn [evict] in Er. injection Er as _ _ <-. rewrite G1.
           unfold within in F2. apply Z.leb_gt in F2. pose proof (K_sum _ _ _ _ K2) as S2. pose proof (K_cache _ _ _ _ K2). lia.
Qed.

(** ** The sums of the specification *)
Lemma sum_app f w : sum f w = fold_right (fun b s => if f b then Z.of_N (psize b) + s else s) 0 (pieces w) + Z.of_N (reserved w).
Proof.
  unfold sum. induction (pieces w) as [ | b bs IH]; cbn [fold_right]; [lia | ]. rewrite IH. destruct (f b); lia.
Qed.
Lemma total_needed_low hs bs : Forall2 hrel hs bs ->
  fold_right (fun b s => if needed b then Z.of_N (psize b) + s else s) 0 bs <= total hs.
Proof.
  induction 1 as [ | h b hs bs R F IH]; [cbn; lia | ]. cbn [fold_right total]. fold (total hs).
  destruct (needed b) eqn:N; [ | lia]. pose proof (H_data _ _ R) as D. destruct (data h).
  - destruct D as (-> & _). rewrite (H_size _ _ R). lia.
  - exfalso. destruct D as (_ & D1 & D2). unfold needed in N. rewrite <- (H_kind _ _ R), D2 in N. destruct (hkind h); try discriminate. congruence.
Qed.
Lemma total_all hs bs : Forall2 hrel hs bs ->
  total hs <= fold_right (fun b s => if (fun _ => true) b then Z.of_N (psize b) + s else s) 0 bs.
Proof.
  induction 1 as [ | h b hs bs R F IH]; [cbn; lia | ]. cbn [fold_right total]. fold (total hs). cbn beta iota in *.
  pose proof (H_data _ _ R) as D. rewrite <- (H_size _ _ R). destruct (data h); destruct D as (-> & _); lia.
Qed.
Lemma total_needed_high hs bs : Forall2 hrel hs bs -> (forall h, In h hs -> ~ waiting h) ->
  total hs <= fold_right (fun b s => if needed b then Z.of_N (psize b) + s else s) 0 bs.
Proof.
  induction 1 as [ | h b hs bs R F IH]; intro W; [cbn; lia | ]. cbn [fold_right total]. fold (total hs).
  assert (IH' := IH (fun x I => W x (or_intror I))). pose proof (H_data _ _ R) as D. destruct (data h) eqn:E.
  - destruct D as (D & _). rewrite D. rewrite (H_size _ _ R).
    assert (N : needed b = true).
    { unfold needed. rewrite <- (H_kind _ _ R). destruct (kind_eqb (hkind h) Tiny) eqn:Kd; [reflexivity | ]. cbn [orb].
      destruct (Z.ltb_spec 0 (pins b)); [reflexivity | ]. exfalso. apply (W h (or_introl eq_refl)).
      split; [unfold loaded; now rewrite E | ]. split.
      - pose proof (H_readers _ _ R) as X. rewrite Kd in X. lia.
      - intro X. rewrite X in Kd. discriminate. }
    rewrite N. lia.
  - destruct D as (D & _). rewrite D. destruct (needed b); lia.
Qed.

(** ** What was unloaded stays so *)
Definition cold (i : nat) (hs : list handle) : Prop := forall h, In h hs -> hid h = i -> data h = None.
Lemma cold_unload i p h : cold i (handles p) -> cold i (handles (unload p h)).
Proof.
  intros C x Ix E. unfold unload, set_handles in Ix. cbn [handles] in Ix. apply in_on in Ix.
  destruct Ix as [(y & Iy & _ & ->) | (Ix & _)]; [reflexivity | now apply C].
Qed.
Lemma cold_evict_queue i reuse extra limit : forall q p, cold i (handles p) ->
  cold i (handles (snd (evict_queue q p reuse extra limit))).
Proof.
  induction q as [ | n q IH]; intros p C; cbn [evict_queue]; [exact C | ]. destruct (try_get (handles p) n) as [h | ]; [ | now apply IH].
  destruct (_ && _); [now apply cold_unload | ]. destruct (within _ _); [now apply cold_unload | ]. apply IH. now apply cold_unload.
Qed.
Lemma cold_evict i reuse extra limit : forall qs p, cold i (handles p) ->
  cold i (handles (snd (evict qs p reuse extra limit))).
Proof.
  induction qs as [ | q qs IH]; intros p C; cbn [evict]; [exact C | ].
  assert (C1 : cold i (handles (add_memory p (Z.of_N extra)))) by (now rewrite (proj1 (add_memory_rest p _))).
  destruct (within _ _); [exact C1 | ].
  pose proof (cold_evict_queue i reuse extra limit q _ C1) as C2.
  destruct (evict_queue q _ reuse extra limit) as (((found & b1) & q1) & p2). cbn [snd] in C2. destruct found; [exact C2 | ].
  assert (C3 : cold i (handles (add_memory p2 (- Z.of_N extra)))) by (now rewrite (proj1 (add_memory_rest p2 _))).
  specialize (IH _ C3). destruct (evict qs _ reuse extra limit) as (((ok3 & b3) & qs3) & p4). exact IH.
Qed.

(** ** The state between calls *)
Record R (p : pool) (w : world) : Prop := {
  R_K : K p w 0 (concat (queues p));
  R_next : next p = count w;
  R_max : maximum p = limit w;
  R_len : length (queues p) = 8%nat;
  R_mem : mem p < Z.of_N (limit w) + threshold }.

Lemma obtain_ok p w reuse extra l r p' : R p w -> obtain p reuse extra l = (r, p') ->
  K p' w (match r with Some _ => Z.of_N extra | None => 0 end) (concat (queues p')) /\ next p' = count w /\ maximum p' = limit w /\
  length (queues p') = 8%nat /\ (forall i, cold i (handles p) -> cold i (handles p')) /\
  match r with
  | Some _ => mem p' < Z.of_N l + threshold \/ (reuse = true /\ mem p' <= mem p)
  | None => mem p' <= mem p /\ Z.of_N l < sum needed w + Z.of_N extra + slack
  end.
Proof.
  intros [Hk Hn Hm Hl Hs] E. unfold obtain in E.
  pose proof (fun i => cold_evict i reuse extra l (queues p) p) as C.
  destruct (evict (queues p) p reuse extra l) as (((ok & buf) & qs) & p2) eqn:Ev.
  destruct (evict_ok reuse extra l w _ _ _ _ _ _ Hk Ev) as (A1 & A2 & A3 & A4 & A5). cbn [snd] in C.
  injection E as <- <-. cbn [set_queues handles next maximum queues].
  split; [ | split; [congruence | split; [congruence | split; [congruence | split; [exact C | ]]]]].
  - destruct ok; (destruct A1; constructor; assumption).
  - destruct ok; [exact A5 | ]. destruct A5 as (A5 & A6 & A7). split; [exact A5 | ].
    assert (Hq : queues p <> []) by (intro X; rewrite X in Hl; discriminate). specialize (A7 Hq).
    assert (W : forall h, In h (handles p2) -> ~ waiting h).
    { intros h Ih Wh. pose proof (K_comp _ _ _ _ A1 h Ih Wh) as X. rewrite A6 in X. destruct X. }
    pose proof (total_needed_high _ _ (K_rel _ _ _ _ A1) W) as T. rewrite sum_app. unfold slack. unfold threshold in A7. lia.
Qed.

Lemma rel_pids hs bs : Forall2 hrel hs bs -> map pid bs = map hid hs.
Proof. induction 1 as [ | h b hs bs H F IH]; [reflexivity | ]. cbn [map]. now rewrite IH, (H_id _ _ H). Qed.
Lemma piece_in hs bs b b' i : Forall2 hrel hs bs -> NoDup (map hid hs) ->
  List.find (fun b => Nat.eqb (pid b) i) bs = Some b -> In b' bs -> pid b' = i -> b' = b.
Proof.
  intros F N G I' E. apply find_some in G. destruct G as (I & E'). apply Nat.eqb_eq in E'. rewrite <- (rel_pids _ _ F) in N. clear F.
  induction bs as [ | x bs IH]; [destruct I | ]. cbn [map] in N. inversion N as [ | ? ? Ni N']. subst x0 l.
  destruct I as [-> | I]; destruct I' as [-> | I']; [reflexivity | | | now apply IH].
  - exfalso. apply Ni. rewrite E', <- E. now apply in_map.
  - exfalso. apply Ni. rewrite E, <- E'. now apply in_map.
Qed.

Lemma on_K p w e Q Q' i f g h b d : K p w e Q -> get i (handles p) = Some h -> piece_of w i = Some b ->
  (forall x, hid (f x) = hid x) -> (forall x, hkind (f x) = hkind x) -> Z.of_N (charge (f h)) = Z.of_N (charge h) + d ->
  hrel (f h) (g b) ->
  (forall x, In x (handles p) -> hid x <> i -> waiting x -> In (hid x, seq x) Q') ->
  (waiting (f h) -> In (hid (f h), seq (f h)) Q') ->
  (forall n, In n Q' -> In n Q \/ (fst n = i /\ hkind h <> Tiny)) ->
  K (set_handles p (on i f (handles p))) (change i g w) (e - d) Q'.
Proof.
  intros [H1 H2 H3 H4 H5 H6 H7] G P F1 F2 F3 F4 F5 F6 F7. apply get_some in G. destruct G as (I & E).
  constructor; cbn [set_handles handles next used cached change pieces reserved].
  - apply on_rel; [exact H1 | ]. intros x c Ix Ic Ex Rx.
    assert (x = h) by (apply (same_handle _ _ _ H2 Ix I); congruence). subst x.
    assert (c = b) by (apply (piece_in _ _ _ _ _ H1 H2 P Ic); rewrite <- (H_id _ _ Rx); exact E). subst c. exact F4.
  - now rewrite on_ids.
  - intros x Ix. apply in_on in Ix. destruct Ix as [(y & Iy & _ & ->) | (Ix & _)]; [rewrite F1 | ]; auto.
  - subst i. rewrite (total_on f _ h H2 I). lia.
  - exact H5.
  - intros x Ix W. apply in_on in Ix. destruct Ix as [(y & Iy & Ey & ->) | (Ix & Nx)]; [ | now apply F5].
    assert (y = h) by (apply (same_handle _ _ _ H2 Iy I); congruence). subst y. now apply F6.
  - intros n In_. destruct (F7 n In_) as [J | (J & T)].
    + destruct (H7 n J) as (A & B). split; [exact A | ]. intros x Ix Ex. apply in_on in Ix.
      destruct Ix as [(y & Iy & Ey & ->) | (Ix & _)]; [rewrite F2; rewrite F1 in Ex | ]; auto.
    + split; [rewrite J, <- E; auto | ]. intros x Ix Ex. apply in_on in Ix.
      destruct Ix as [(y & Iy & Ey & ->) | (Ix & Nx)]; [ | congruence].
      assert (y = h) by (apply (same_handle _ _ _ H2 Iy I); congruence). subst y. now rewrite F2.
Qed.

Lemma new_K p w Q h b e : K p w e Q -> next p = count w -> hid h = next p -> hrel h b -> Z.of_N (charge h) = e -> ~ waiting h ->
  K (new_handle p h) {| pieces := pieces w ++ [b]; count := S (count w); reserved := reserved w; limit := limit w |} 0 Q.
Proof.
  intros [H1 H2 H3 H4 H5 H6 H7] En Eh Rb Ec Nw. constructor; cbn [new_handle handles next used cached pieces reserved].
  - apply Forall2_app; [exact H1 | ]. constructor; [exact Rb | constructor].
  - rewrite map_app. cbn [map]. apply NoDup_Add with (a := hid h) (l := map hid (handles p)).
    + apply Add_app with (l1 := map hid (handles p)) (l2 := []) (a := hid h) || (rewrite <- (app_nil_r (map hid (handles p))) at 1; apply Add_app).
    + split; [exact H2 | ]. intro J. apply in_map_iff in J. destruct J as (x & Ex & Ix). pose proof (H3 x Ix). lia.
  - intros x Ix. apply in_app_or in Ix. destruct Ix as [Ix | [<- | []]]; [pose proof (H3 x Ix) | ]; lia.
  - rewrite total_app. cbn [total fold_right]. lia.
  - exact H5.
  - intros x Ix W. apply in_app_or in Ix. destruct Ix as [Ix | [<- | []]]; [now apply H6 | contradiction].
  - intros n In_. destruct (H7 n In_) as (A & B). split; [lia | ]. intros x Ix Ex. apply in_app_or in Ix.
    destruct Ix as [Ix | [<- | []]]; [now apply B | lia].
Qed.

(** ** Queues *)
Lemma purge_sub hs x : forall n q, In x (purge hs n q) -> In x q.
Proof.
  induction n as [ | n IH]; intros q I; cbn [purge] in I; [exact I | ]. apply IH in I. apply in_app_or in I.
  rewrite <- (firstn_skipn purge_size q). apply in_or_app. destruct I as [I | I]; [now right | ]. left. now apply filter_In in I.
Qed.
Lemma purge_keep hs x h : try_get hs x = Some h -> forall n q, In x q -> In x (purge hs n q).
Proof.
  intro T. induction n as [ | n IH]; intros q I; cbn [purge]; [exact I | ]. apply IH.
  rewrite <- (firstn_skipn purge_size q) in I. apply in_or_app. apply in_app_or in I. destruct I as [I | I]; [ | now left].
  right. apply filter_In. split; [exact I | ]. now rewrite T.
Qed.
Lemma at_queue_sub f (n x : nat * N) : (forall q, In x (f q) -> In x q \/ x = n) -> forall qs k,
  In x (concat (at_queue k f qs)) -> In x (concat qs) \/ x = n.
Proof.
  intro H. induction qs as [ | q qs IH]; intros k I; [left; destruct k; exact I | ].
  destruct k; cbn [at_queue concat] in *; apply in_app_or in I; destruct I as [I | I].
  - apply H in I. destruct I; [left; apply in_or_app; now left | now right].
  - left. apply in_or_app. now right.
  - left. apply in_or_app. now left.
  - apply IH in I. destruct I; [left; apply in_or_app; now right | now right].
Qed.
Lemma at_queue_keep f (x : nat * N) : (forall q, In x q -> In x (f q)) -> forall qs k,
  In x (concat qs) -> In x (concat (at_queue k f qs)).
Proof.
  intro H. induction qs as [ | q qs IH]; intros k I; [destruct I | ].
  destruct k; cbn [at_queue concat] in *; apply in_app_or in I; apply in_or_app; destruct I as [I | I]; auto.
Qed.
Lemma at_queue_new f (x : nat * N) : (forall q, In x (f q)) -> forall qs k, (k < length qs)%nat -> In x (concat (at_queue k f qs)).
Proof.
  intro H. induction qs as [ | q qs IH]; intros k L; [inversion L | ].
  destruct k; cbn [at_queue concat length] in *; apply in_or_app; [now left | right]. apply IH. lia.
Qed.
Lemma at_queue_length f : forall qs k, length (at_queue k f qs) = length qs.
Proof. induction qs as [ | q qs IH]; intros [ | k]; cbn [at_queue length]; auto. Qed.

(** ** Single calls *)
Lemma R_mem_add p w : forall q e, K p w e q -> 0 <= e -> 0 <= mem p.
Proof. intros q e Hk He. pose proof (K_sum _ _ _ _ Hk). pose proof (total_nonneg (handles p)). unfold mem. lia. Qed.

Lemma small_ok p w n x p' : R p w -> made (register_small p n) = (x, p') ->
  right_data w (Small n) x /\ right_memory w (Small n) x /\ R p' (after_out w (Small n) x).
Proof.
  intros HR E. unfold register_small in E. destruct (obtain p false n (maximum p)) as (r & p1) eqn:O.
  destruct (obtain_ok p w _ _ _ _ _ HR O) as (A1 & A2 & A3 & A4 & A5 & A6). destruct r as [buf | ]; cbn [made] in E; injection E as <- <-.
  - cbn [right_data right_memory after_out after]. rewrite A2. split; [now left | split; [discriminate | ]].
    constructor; cbn [new_handle queues next maximum add count limit]; auto.
    + unfold add. refine (new_K p1 w _ _ _ (Z.of_N n) A1 A2 _ _ _ _); [exact (eq_sym A2) | | reflexivity | ].
      * constructor; cbn; auto; try lia; try discriminate. split; [reflexivity | discriminate].
      * intros (_ & _ & X). now apply X.
    + rewrite (R_max _ _ HR) in A6. destruct A6 as [A6 | (A6 & _)]; [exact A6 | discriminate].
  - cbn [right_data right_memory after_out]. split; [now right | ]. destruct A6 as (A6 & A7). rewrite (R_max _ _ HR) in A7.
    split; [intros _; exact A7 | ]. pose proof (R_mem _ _ HR). constructor; auto. lia.
Qed.

Lemma allocate_ok p w n x p' : R p w -> made (allocate p n) = (x, p') ->
  right_data w (Allocate n) x /\ right_memory w (Allocate n) x /\ R p' (after_out w (Allocate n) x).
Proof.
  intros HR E. cbn [right_data right_memory after_out after]. unfold right_memory, after_out, after. rewrite room_size. unfold allocate in E. set (a := allocation_size n) in *. destruct (obtain p true a (maximum p)) as (r & p1) eqn:O.
  pose proof (R_mem _ _ HR) as M.
  destruct (obtain_ok p w _ _ _ _ _ HR O) as (A1 & A2 & A3 & A4 & A5 & A6). destruct r as [buf | ]; cbn [made] in E; injection E as <- <-.
  - cbn [right_data right_memory after_out after]. rewrite A2. split; [now left | split; [discriminate | ]].
    fold a. constructor; cbn [new_handle queues next maximum add count limit]; auto.
    + unfold add. refine (new_K p1 w _ _ _ (Z.of_N a) A1 A2 _ _ _ _); [exact (eq_sym A2) | | reflexivity | ].
      * constructor; cbn; auto; try lia; try discriminate. split; [reflexivity | discriminate].
      * intros (_ & X & _). cbn in X. lia.
    + rewrite (R_max _ _ HR) in A6. destruct A6 as [A6 | (_ & A6)]; [exact A6 | ].
      change (mem p1 < Z.of_N (limit w) + threshold). lia.
  - cbn [right_data right_memory after_out]. fold a. split; [now right | ]. destruct A6 as (A6 & A7). rewrite (R_max _ _ HR) in A7.
    split; [intros _; exact A7 | ]. constructor; auto. lia.
Qed.

Lemma block_ok p w c : R p w -> R (snd (register_block p c)) (after w (Block c)) /\ fst (register_block p c) = count w.
Proof.
  intro HR. split; [ | exact (R_next _ _ HR)]. unfold register_block. cbn [snd after]. destruct HR as [H1 H2 H3 H4 H5].
  constructor; cbn [new_handle queues next maximum add count limit]; auto.
  unfold add. rewrite H2. refine (new_K p w _ _ _ 0 H1 H2 _ _ _ _); [exact (eq_sym H2) | | reflexivity | ].
  - constructor; cbn; auto; try lia. repeat split; congruence.
  - intros (X & _). discriminate.
Qed.

Lemma rel_pair p w i : R p w ->
  match get i (handles p), piece_of w i with
  | Some h, Some b => hrel h b
  | None, None => True
  | _, _ => False
  end.
Proof. intro HR. exact (rel_get _ _ i (K_rel _ _ _ _ (R_K _ _ HR))). Qed.

Lemma kind_tiny k : kind_eqb k Tiny = false -> k <> Tiny.
Proof. now destruct k. Qed.

Lemma pin_ok p w i b : R p w -> piece_of w i = Some b ->
  match pin p i with
  | Err _ => pkind b = Managed /\ pins b = 0
  | Ok (true, p') => R p' (change i (fun b => more b 1) w)
  | Ok (false, p') => R p' w /\ Z.of_N (limit w) < sum needed w + Z.of_N (psize b) + slack
  end.
Proof.
  intros HR P. pose proof (rel_pair p w i HR) as G. rewrite P in G. destruct (get i (handles p)) as [h | ] eqn:Gh; [ | destruct G].
  unfold pin. rewrite Gh. destruct (loaded h) eqn:L.
  - destruct HR as [H1 H2 H3 H4 H5]. constructor; cbn [set_handles next maximum queues change count limit]; auto.
    replace 0 with (0 - 0) by lia.
    apply (on_K p w 0 _ _ i more_readers (fun b => more b 1) h b 0 H1 Gh P); auto; try reflexivity.
    + cbn [more_readers charge]. lia.
    + destruct G as [G1 G2 G3 G4 G5 G6 G7]. constructor; cbn [more_readers more hid hkind size data readers charge stored pid pkind psize pins content]; auto.
      * lia.
      * destruct (kind_eqb (hkind h) Tiny); lia.
      * unfold loaded in L. destruct (data h); [exact G6 | discriminate].
    + intros x Ix _ W. exact (K_comp _ _ _ _ H1 x Ix W).
    + intros (_ & W & T). cbn [more_readers readers hkind] in W, T. pose proof (H_readers _ _ G) as X. pose proof (H_pins _ _ G).
      destruct (kind_eqb (hkind h) Tiny) eqn:E; [ | lia]. exfalso. apply T. now destruct (hkind h).
  - assert (D : charge h = 0%N /\ hkind h <> Tiny /\ pins b = 0).
    { pose proof (H_data _ _ G) as D. unfold loaded in L. now destruct (data h). }
    assert (Cd : cold i (handles p)).
    { intros x Ix Ex. apply get_some in Gh. destruct Gh as (Ih & Eh).
      assert (x = h) by (apply (same_handle _ _ _ (K_ids _ _ _ _ (R_K _ _ HR)) Ix Ih); congruence). subst x.
      unfold loaded in L. now destruct (data h). }
    pose proof (R_mem _ _ HR) as M. pose proof (R_max _ _ HR) as Mx.
    destruct (obtain p true (size h) (maximum p)) as (r & p1) eqn:O.
    destruct (obtain_ok p w _ _ _ _ _ HR O) as (A1 & A2 & A3 & A4 & A5 & A6). rewrite Mx in A6. specialize (A5 i Cd).
    destruct r as [buf | ].
    + destruct (hkind h) eqn:Kh.
      * pose proof (rel_get _ _ i (K_rel _ _ _ _ A1)) as G'. unfold piece_of in P. rewrite P in G'.
        destruct (get i (handles p1)) as [h1 | ] eqn:Gh1; [ | destruct G'].
        assert (D1 : data h1 = None) by (apply get_some in Gh1; destruct Gh1; now apply A5).
        pose proof (H_data _ _ G') as X. rewrite D1 in X. destruct X as (X1 & X2 & X3).
        assert (Sz : size h1 = size h) by (rewrite (H_size _ _ G), (H_size _ _ G'); reflexivity).
        assert (Kd : hkind h1 = File) by (rewrite <- Kh, (H_kind _ _ G), (H_kind _ _ G'); reflexivity).
        constructor; cbn [set_handles next maximum queues change count limit]; auto.
        -- replace 0 with (Z.of_N (size h) - Z.of_N (size h)) by lia.
           apply (on_K p1 w _ _ _ i from_file (fun b => more b 1) h1 b (Z.of_N (size h)) A1 Gh1 P); auto; try reflexivity.
           ++ cbn [from_file charge]. rewrite X1, Sz. lia.
           ++ destruct G' as [G1 G2 G3 G4 G5 G6 G7]. constructor; cbn [from_file more hid hkind size data readers charge stored pid pkind psize pins content]; auto.
              ** lia.
              ** rewrite Kd. cbn [kind_eqb]. lia.
              ** split; [reflexivity | ]. intros c Hc. rewrite (G7 Kd) in Hc. congruence.
           ++ intros x Ix _ W. exact (K_comp _ _ _ _ A1 x Ix W).
           ++ intros (_ & W & T). cbn [from_file readers] in W. lia.
        -- change (mem p1 < Z.of_N (limit w) + threshold). destruct A6 as [A6 | (_ & A6)]; lia.
      * split; [rewrite <- (H_kind _ _ G); exact Kh | apply D].
      * destruct D as (_ & D & _). congruence.
    + destruct A6 as (A6 & A7). split; [constructor; auto; lia | ]. rewrite <- (H_size _ _ G). exact A7.
Qed.

Lemma unpin_ok p w i k b : R p w -> piece_of w i = Some b -> 0 < pins b ->
  exists p', unpin p i k = Ok p' /\ R p' (change i (fun b => more b (-1)) w).
Proof.
  intros HR P Pb. pose proof (rel_pair p w i HR) as G. rewrite P in G. destruct (get i (handles p)) as [h | ] eqn:Gh; [ | destruct G].
  assert (L : loaded h = true).
  { pose proof (H_data _ _ G) as D. unfold loaded. destruct (data h); [reflexivity | ]. destruct D as (_ & _ & D). lia. }
  unfold unpin. rewrite Gh, L. cbn [negb orb]. destruct HR as [H1 H2 H3 H4 H5]. destruct (kind_eqb (hkind h) Tiny) eqn:Kt.
  - eexists. split; [reflexivity | ]. constructor; cbn [change count limit]; auto.
    pose proof (on_K p w 0 _ (concat (queues p)) i (fun h => h) (fun b => more b (-1)) h b 0 H1 Gh P) as X.
    replace (set_handles p (on i (fun h => h) (handles p))) with p in X.
    2: { unfold on. rewrite map_ext with (g := fun x => x) by (intro y; now destruct (Nat.eqb (hid y) i)). rewrite map_id. now destruct p. }
    apply X; auto; try lia.
    + destruct G as [G1 G2 G3 G4 G5 G6 G7]. constructor; cbn [more pid pkind psize pins content]; auto; [lia | | ].
      * rewrite Kt in *. lia.
      * unfold loaded in L. destruct (data h); [exact G6 | discriminate].
    + intros x Ix _ W. exact (K_comp _ _ _ _ H1 x Ix W).
    + intro W. apply get_some in Gh. exact (K_comp _ _ _ _ H1 h (proj1 Gh) W).
  - pose proof (H_readers _ _ G) as Rd. rewrite Kt in Rd. apply kind_tiny in Kt.
    assert (Rel : hrel (fewer_readers h) (more b (-1))).
    { destruct G as [G1 G2 G3 G4 G5 G6 G7].
      constructor; cbn [fewer_readers more hid hkind size data readers charge stored pid pkind psize pins content]; auto; [lia | | ].
      - destruct (kind_eqb (hkind h) Tiny); lia.
      - unfold loaded in L. destruct (data h); [exact G6 | discriminate]. }
    assert (Ids : hid h = i) by (apply get_some in Gh; apply Gh).
    cbn [fewer_readers readers seq]. destruct (Z.eqb_spec (readers h - 1) 0) as [Z0 | Z0].
    + eexists. split; [reflexivity | ].
      constructor; cbn [set_queues set_handles next maximum queues change count limit]; auto; [ | now rewrite at_queue_length].
      set (hs' := on i fewer_readers (handles p)). set (nd := (i, (seq h + 1)%N)).
      set (Q' := concat _).
      assert (HK : K (set_handles p hs') (change i (fun b => more b (-1)) w) (0 - 0) Q').
      { apply (on_K p w 0 _ Q' i fewer_readers (fun b => more b (-1)) h b 0 H1 Gh P); auto; try reflexivity.
        - cbn [fewer_readers charge]. lia.
        - intros x Ix Nx W. unfold Q'. apply at_queue_keep; [ | exact (K_comp _ _ _ _ H1 x Ix W)].
          intros q Iq. apply (purge_keep _ _ x); [ | apply in_or_app; now left].
          assert (Ix' : In x hs').
          { unfold hs', on. apply in_map_iff. exists x. split; [ | exact Ix]. destruct (Nat.eqb_spec (hid x) i); [contradiction | reflexivity]. }
          assert (Nd : NoDup (map hid hs')) by (unfold hs'; rewrite on_ids; [exact (K_ids _ _ _ _ H1) | reflexivity]).
          unfold try_get. cbn [fst snd set_handles handles]. fold hs'. rewrite (get_in _ _ Nd Ix'), N.eqb_refl. destruct W as (W1 & W2 & _). unfold can_unload. rewrite W1.
          destruct (Z.ltb_spec 0 (readers x)); [lia | reflexivity].
        - intros _. unfold Q'. cbn [fewer_readers hid seq]. rewrite Z0, Ids. cbn [Z.eqb]. fold nd.
          apply at_queue_new; [ | rewrite H4; destruct (hkind h); cbn; lia].
          intro q. apply (purge_keep _ _ (fewer_readers h)); [ | apply in_or_app; right; now left].
          assert (Ix' : In (fewer_readers h) hs').
          { unfold hs', on. apply in_map_iff. exists h. rewrite Ids, Nat.eqb_refl. split; [reflexivity | ]. now apply get_some in Gh. }
          assert (Nd : NoDup (map hid hs')) by (unfold hs'; rewrite on_ids; [exact (K_ids _ _ _ _ H1) | reflexivity]).
          unfold try_get. cbn [fst snd nd set_handles handles]. fold hs'. pose proof (get_in _ _ Nd Ix') as X. cbn [fewer_readers hid] in X. rewrite Ids in X. rewrite X.
          cbn [fewer_readers seq]. rewrite Z0. cbn [Z.eqb]. rewrite N.eqb_refl. unfold can_unload. cbn [fewer_readers readers]. rewrite Z0.
          unfold loaded in *. cbn [fewer_readers data]. destruct (data h); [reflexivity | discriminate].
        - intros n In_. unfold Q' in In_. apply (at_queue_sub _ nd) in In_.
          + destruct In_ as [J | ->]; [now left | right; now split].
          + intros q J. apply purge_sub in J. apply in_app_or in J. destruct J as [J | [<- | []]]; [now left | now right]. }
      destruct HK. constructor; auto.
    + eexists. split; [reflexivity | ]. constructor; cbn [set_handles next maximum queues change count limit]; auto.
      replace 0 with (0 - 0) by lia.
      apply (on_K p w 0 _ _ i fewer_readers (fun b => more b (-1)) h b 0 H1 Gh P); auto; try reflexivity.
      * cbn [fewer_readers charge]. lia.
      * intros x Ix _ W. exact (K_comp _ _ _ _ H1 x Ix W).
      * intros (_ & W & _). cbn [fewer_readers readers] in W. lia.
Qed.

Lemma write_ok p w i d b : R p w -> piece_of w i = Some b -> 0 < pins b -> pkind b <> File ->
  exists p', write p i d = Ok p' /\ R p' (change i (with_content d) w).
Proof.
  intros HR P Pb Kb. pose proof (rel_pair p w i HR) as G. rewrite P in G. destruct (get i (handles p)) as [h | ] eqn:Gh; [ | destruct G].
  assert (L : loaded h = true).
  { pose proof (H_data _ _ G) as D. unfold loaded. destruct (data h); [reflexivity | ]. destruct D as (_ & _ & D). lia. }
  unfold write. rewrite Gh, L. eexists. split; [reflexivity | ]. destruct HR as [H1 H2 H3 H4 H5].
  constructor; cbn [set_handles next maximum queues change count limit]; auto. replace 0 with (0 - 0) by lia.
  apply (on_K p w 0 _ _ i (written d) (with_content d) h b 0 H1 Gh P); auto; try reflexivity.
  - cbn [written charge]. lia.
  - destruct G as [G1 G2 G3 G4 G5 G6 G7].
    constructor; cbn [written with_content hid hkind size data readers charge stored pid pkind psize pins content]; auto.
    + split; [ | congruence]. unfold loaded in L. destruct (data h); [apply G6 | discriminate].
    + intro X. congruence.
  - intros x Ix _ W. exact (K_comp _ _ _ _ H1 x Ix W).
  - intros (_ & W & T). cbn [written hid seq]. apply get_some in Gh. apply (K_comp _ _ _ _ H1 h (proj1 Gh)). now split.
Qed.

Lemma read_ok p w i b c : R p w -> piece_of w i = Some b -> 0 < pins b -> content b = Some c -> read p i = Ok c.
Proof.
  intros HR P Pb Cb. pose proof (rel_pair p w i HR) as G. rewrite P in G. unfold read. destruct (get i (handles p)) as [h | ]; [ | destruct G].
  pose proof (H_data _ _ G) as D. destruct (data h) as [d | ]; [ | lia]. destruct D as (_ & D). now rewrite (D c Cb).
Qed.

Lemma filter_rel i hs bs : Forall2 hrel hs bs ->
  Forall2 hrel (filter (fun x => negb (Nat.eqb (hid x) i)) hs) (filter (fun b => negb (Nat.eqb (pid b) i)) bs).
Proof.
  induction 1 as [ | h b hs bs H F IH]; [constructor | ]. cbn [filter]. rewrite <- (H_id _ _ H).
  destruct (Nat.eqb (hid h) i); cbn [negb]; [exact IH | now constructor].
Qed.
Lemma filter_ids (f : handle -> bool) hs : NoDup (map hid hs) -> NoDup (map hid (filter f hs)).
Proof.
  induction hs as [ | x hs IH]; intro N; [constructor | ]. cbn [map] in N. inversion N as [ | ? ? Ni N']. subst. cbn [filter].
  destruct (f x); [ | now apply IH]. cbn [map]. constructor; [ | now apply IH]. intro J. apply Ni. apply in_map_iff in J.
  destruct J as (y & E & J). apply filter_In in J. apply in_map_iff. exists y. now split.
Qed.
Lemma release_ok p w i b : R p w -> piece_of w i = Some b ->
  exists p', release p i = Ok p' /\ R p' (after w (Release i)).
Proof.
  intros HR P. pose proof (rel_pair p w i HR) as G. rewrite P in G. unfold release. destruct (get i (handles p)) as [h | ] eqn:Gh; [ | destruct G].
  eexists. split; [reflexivity | ]. destruct HR as [H1 H2 H3 H4 H5]. apply get_some in Gh. destruct Gh as (Ih & Eh).
  set (p1 := if loaded h then _ else p).
  assert (K1 : K p1 w (- Z.of_N (charge h)) (concat (queues p)) /\ handles p1 = handles p /\ next p1 = next p /\ queues p1 = queues p /\
               maximum p1 = maximum p /\ mem p1 <= mem p).
  { unfold p1. destruct (loaded h) eqn:L.
    - destruct (add_memory_rest p (- Z.of_N (charge h))) as (E1 & E2 & E3 & E4).
      split; [ | split; [exact E1 | split; [exact E2 | split; [exact E3 | split; [exact E4 | ]]]]].
      + exact (add_memory_K _ _ _ _ (- Z.of_N (charge h)) H1).
      + unfold mem. rewrite add_memory_sum. lia.
    - pose proof (H_data _ _ G) as D. unfold loaded in L. destruct (data h); [discriminate | ]. destruct D as (-> & _).
      split; [exact H1 | ]. repeat split; auto; lia. }
  destruct K1 as (K1 & E1 & E2 & E3 & E4 & E5). rewrite <- E1.
  constructor; cbn [set_handles next maximum queues after count limit]; try congruence.
  - rewrite E3. destruct K1 as [J1 J2 J3 J4 J5 J6 J7].
    constructor; cbn [set_handles handles next used cached pieces reserved].
    + now apply filter_rel.
    + now apply filter_ids.
    + intros x Ix. apply filter_In in Ix. now apply J3.
    + subst i. rewrite E1 in J2. rewrite E1 in *. rewrite (total_filter _ h J2 Ih). lia.
    + exact J5.
    + intros x Ix W. apply filter_In in Ix. now apply J6.
    + intros n In_. destruct (J7 n In_) as (A & B). split; [exact A | ]. intros x Ix. apply filter_In in Ix. now apply B.
  - change (mem p1 < Z.of_N (limit w) + threshold). lia.
Qed.

Lemma limit_ok p w l x p' : R p w -> said (set_limit p l) = (x, p') ->
  right_data w (Limit l) x /\ right_memory w (Limit l) x /\ R p' (after_out w (Limit l) x).
Proof.
  intros HR E. unfold set_limit in E. destruct (obtain p false 0 l) as (r & p1) eqn:O. pose proof (R_mem _ _ HR) as M.
  destruct (obtain_ok p w _ _ _ _ _ HR O) as (A1 & A2 & A3 & A4 & A5 & A6). destruct r as [buf | ]; cbn [said] in E; injection E as <- <-.
  - cbn [right_data right_memory after_out after]. split; [now left | split; [discriminate | ]].
    constructor; cbn [next maximum queues count limit]; auto.
    + destruct A1. constructor; auto.
    + destruct A6 as [A6 | (A6 & _)]; [exact A6 | discriminate].
  - cbn [right_data right_memory after_out]. split; [now right | ]. destruct A6 as (A6 & A7). split; [intros _; lia | ]. constructor; auto. lia.
Qed.
Lemma reserve_ok p w n x p' : R p w -> said (reserve p n) = (x, p') ->
  right_data w (Reserve n) x /\ right_memory w (Reserve n) x /\ R p' (after_out w (Reserve n) x).
Proof.
  intros HR E. unfold reserve in E. pose proof (R_mem _ _ HR) as M. destruct (N.eqb_spec n 0) as [-> | N0].
  - cbn [said] in E. injection E as <- <-. cbn [right_data right_memory after_out after]. split; [now left | split; [discriminate | ]].
    destruct HR as [H1 H2 H3 H4 H5]. constructor; cbn [count limit]; auto. destruct H1. constructor; cbn [pieces reserved]; auto. lia.
  - destruct (obtain p false n (maximum p)) as (r & p1) eqn:O. pose proof (R_max _ _ HR) as Mx.
    destruct (obtain_ok p w _ _ _ _ _ HR O) as (A1 & A2 & A3 & A4 & A5 & A6). rewrite Mx in A6.
    destruct r as [buf | ]; cbn [said] in E; injection E as <- <-.
    + cbn [right_data right_memory after_out after]. split; [now left | split; [discriminate | ]].
      constructor; cbn [count limit]; auto.
      * destruct A1. constructor; cbn [pieces reserved]; auto. lia.
      * destruct A6 as [A6 | (A6 & _)]; [exact A6 | discriminate].
    + cbn [right_data right_memory after_out]. split; [now right | ]. destruct A6 as (A6 & A7). split; [intros _; exact A7 | ]. constructor; auto. lia.
Qed.
Lemma free_ok p w n : R p w -> (n <= reserved w)%N -> R (free p n) (after w (Free n)).
Proof.
  intros [H1 H2 H3 H4 H5] L. unfold free. destruct (N.eqb_spec n 0) as [-> | N0]; cbn [after].
  - constructor; cbn [count limit]; auto. destruct H1. constructor; cbn [pieces reserved]; auto. lia.
  - destruct (add_memory_rest p (- Z.of_N n)) as (E1 & E2 & E3 & E4). constructor; cbn [count limit]; try congruence.
    + rewrite E3. apply (add_memory_K _ _ _ _ (- Z.of_N n)) in H1. destruct H1. constructor; cbn [pieces reserved]; auto. lia.
    + unfold mem in *. rewrite add_memory_sum. lia.
Qed.
Lemma used_ok p w z p' : R p w -> used_memory p = (z, p') ->
  sum needed w <= z <= sum (fun _ => true) w /\ z < Z.of_N (limit w) + slack /\ R p' w.
Proof.
  intros [H1 H2 H3 H4 H5] E. unfold used_memory in E. injection E as <- <-. pose proof (total_nonneg (handles p)) as Nn.
  pose proof (K_sum _ _ _ _ H1) as S. pose proof (total_needed_low _ _ (K_rel _ _ _ _ H1)) as T1.
  pose proof (total_all _ _ (K_rel _ _ _ _ H1)) as T2. rewrite !sum_app. cbn beta iota in *. unfold mem, threshold, slack in *.
  split; [lia | split; [lia | ]]. constructor; cbn [next maximum queues]; auto.
  - destruct H1. constructor; cbn [handles next used cached]; auto; [lia | reflexivity].
  - unfold mem, threshold. cbn [used cached]. lia.
Qed.

Lemma step_ok p w o x p' : R p w -> legal w o -> step p o = Ok (x, p') ->
  right_data w o x /\ right_memory w o x /\ R p' (after_out w o x).
Proof.
  intros HR L E. destruct o as [n | n | c | i | i k | i d | i | i | l | n | n | ]; cbn [step] in E.
  - apply (small_ok p); [exact HR | ]. congruence.
  - apply (allocate_ok p); [exact HR | ]. congruence.
  - destruct (block_ok p w c HR) as (A & B). destruct (register_block p c) as (i & p1). cbn [fst snd] in A, B.
    injection E as <- <-. subst i. cbn. auto.
  - destruct L as (b & L). pose proof (pin_ok p w i b HR L) as X. destruct (pin p i) as [([ | ] & p1) | e]; cbn [rbind said] in E;
      [ | | discriminate]; injection E as <- <-; cbn [right_data right_memory after_out after].
    + split; [now left | split; [discriminate | exact X]].
    + destruct X as (X & Y). split; [now right | split; [ | exact X]]. intros _. exists b. auto.
  - destruct L as (b & L & Pb). destruct (unpin_ok p w i k b HR L Pb) as (p1 & E1 & R1). rewrite E1 in E. cbn [rbind] in E.
    injection E as <- <-. cbn. auto.
  - destruct L as (b & L & Pb & Kb). destruct (write_ok p w i d b HR L Pb Kb) as (p1 & E1 & R1). rewrite E1 in E. cbn [rbind] in E.
    injection E as <- <-. cbn. auto.
  - destruct L as (b & L & Pb & Cb). destruct (content b) as [c | ] eqn:Ec; [ | congruence].
    rewrite (read_ok p w i b c HR L Pb Ec) in E. cbn [rbind] in E. injection E as <- <-. cbn.
    split; [exists b, c; auto | split; [exact I | exact HR]].
  - destruct L as (b & L & Pb). destruct (release_ok p w i b HR L) as (p1 & E1 & R1). rewrite E1 in E. cbn [rbind] in E.
    injection E as <- <-. cbn. auto.
  - apply (limit_ok p); [exact HR | ]. congruence.
  - apply (reserve_ok p); [exact HR | ]. congruence.
  - injection E as <- <-. cbn [right_data right_memory after_out]. split; [reflexivity | split; [exact I | now apply free_ok]].
  - destruct (used_memory p) as (z & p1) eqn:U. destruct (used_ok p w z p1 HR U) as (A & B & C). injection E as <- <-.
    cbn [right_data right_memory after_out after]. split; [now exists z | split; [ | exact C]]. exists z. auto.
Qed.

Lemma R0 l : R (pool0 l) (world0 l).
Proof.
  constructor; try reflexivity; [ | unfold mem, threshold; cbn [pool0 used cached world0 limit]; lia].
  constructor; cbn [pool0 world0 handles pieces next used cached reserved queues].
  - constructor.
  - constructor.
  - intros h [].
  - reflexivity.
  - reflexivity.
  - intros h [].
  - intros n [].
Qed.

Lemma run_ok : forall ops p w outs p', R p w -> run p ops = Ok (outs, p') ->
  all_right right_data w ops outs /\ all_right right_memory w ops outs /\ (all_legal w ops outs -> R p' (world_after w ops outs)).
Proof.
  induction ops as [ | o ops IH]; intros p w outs p' HR E; cbn [run] in E.
  - injection E as <- <-. cbn. auto.
  - destruct (step p o) as [(x & p1) | ] eqn:S; [ | discriminate]. cbn [rbind] in E.
    destruct (run p1 ops) as [(xs & p2) | ] eqn:Rn; [ | discriminate]. cbn [rbind] in E. injection E as <- <-.
    cbn [all_right all_legal world_after]. split; [ | split].
    + intro L. destruct (step_ok p w o x p1 HR L S) as (A & B & C). split; [exact A | ]. apply (IH p1 _ _ _ C Rn).
    + intro L. destruct (step_ok p w o x p1 HR L S) as (A & B & C). split; [exact B | ]. apply (IH p1 _ _ _ C Rn).
    + intros (L & Ls). destruct (step_ok p w o x p1 HR L S) as (A & B & C). now apply (IH p1 _ _ _ C Rn).
Qed.

(** Every legal call has an answer, but for memory that is pinned again. *)
Lemma step_total p w o : R p w -> legal w o -> ~ pins_again w o -> exists x p', step p o = Ok (x, p').
Proof.
  intros HR L Np. destruct o as [n | n | c | i | i k | i d | i | i | l | n | n | ]; cbn [step].
  - destruct (made _) as (x & p1). now exists x, p1.
  - destruct (made _) as (x & p1). now exists x, p1.
  - destruct (register_block p c) as (i & p1). now exists (Id i), p1.
  - destruct L as (b & L). pose proof (pin_ok p w i b HR L) as X. destruct (pin p i) as [r | e]; cbn [rbind].
    + destruct (said r) as (x & p1). now exists x, p1.
    + exfalso. apply Np. exists i, b. split; [reflexivity | ]. split; [exact L | exact X].
  - destruct L as (b & L & Pb). destruct (unpin_ok p w i k b HR L Pb) as (p1 & E1 & R1). rewrite E1. cbn [rbind]. now exists Done, p1.
  - destruct L as (b & L & Pb & Kb). destruct (write_ok p w i d b HR L Pb Kb) as (p1 & E1 & R1). rewrite E1. cbn [rbind]. now exists Done, p1.
  - destruct L as (b & L & Pb & Cb). destruct (content b) as [c | ] eqn:Ec; [ | congruence].
    rewrite (read_ok p w i b c HR L Pb Ec). cbn [rbind]. now exists (Bytes c), p.
  - destruct L as (b & L & Pb). destruct (release_ok p w i b HR L) as (p1 & E1 & R1). rewrite E1. cbn [rbind]. now exists Done, p1.
  - destruct (said _) as (x & p1). now exists x, p1.
  - destruct (said _) as (x & p1). now exists x, p1.
  - now exists Done, (free p n).
  - destruct (used_memory p) as (z & p1). now exists (Memory z), p1.
Qed.
Lemma run_total l ops outs p o : run (pool0 l) ops = Ok (outs, p) -> all_legal (world0 l) ops outs ->
  legal (world_after (world0 l) ops outs) o -> ~ pins_again (world_after (world0 l) ops outs) o ->
  exists x p', step p o = Ok (x, p').
Proof. intros E L Lo Np. destruct (run_ok _ _ _ _ _ (R0 l) E) as (_ & _ & A). exact (step_total _ _ _ (A L) Lo Np). Qed.

(** ** When everything fits *)
Definition hot (p : pool) : Prop := forall h, In h (handles p) -> data h = None -> hkind h = File.
Lemma obtain_fits p w reuse extra l : R p w -> total (handles p) + Z.of_N (reserved w) + Z.of_N extra + slack <= Z.of_N l ->
  exists p', obtain p reuse extra l = (Some None, p') /\ handles p' = handles p.
Proof.
  intros [H1 H2 H3 H4 H5] L. unfold obtain. destruct (queues p) as [ | q qs]; [discriminate | ]. cbn [evict].
  destruct (add_memory_rest p (Z.of_N extra)) as (E1 & _). pose proof (add_memory_K _ _ _ _ (Z.of_N extra) H1) as K1.
  pose proof (K_sum _ _ _ _ K1) as S1. pose proof (K_cache _ _ _ _ K1) as C1. rewrite E1 in S1. unfold slack in L. unfold threshold in C1.
  assert (W : within (add_memory p (Z.of_N extra)) l = true).
  { unfold within. apply Z.leb_le. pose proof (total_nonneg (handles p)). lia. }
  rewrite W. eexists. split; [reflexivity | exact E1].
Qed.
Lemma total_cold hs bs h : Forall2 hrel hs bs -> In h hs -> data h = None ->
  total hs + Z.of_N (size h) <= fold_right (fun b s => Z.of_N (psize b) + s) 0 bs.
Proof.
  induction 1 as [ | x b hs bs Rb F IH]; intros Ih Dh; [destruct Ih | ]. cbn [fold_right total]. fold (total hs).
  destruct Ih as [-> | Ih].
  - pose proof (H_data _ _ Rb) as D. rewrite Dh in D. destruct D as (-> & _). pose proof (total_all _ _ F) as T. cbn beta iota in T.
    rewrite (H_size _ _ Rb). lia.
  - specialize (IH Ih Dh). pose proof (H_data _ _ Rb) as D. rewrite <- (H_size _ _ Rb). destruct (data x); destruct D as (-> & _); lia.
Qed.
Lemma sum_change i f w : (forall b, psize (f b) = psize b) -> sum (fun _ => true) (change i f w) = sum (fun _ => true) w.
Proof.
  intro H. rewrite !sum_app. cbn [change pieces reserved]. f_equal. induction (pieces w) as [ | b bs IH]; [reflexivity | ].
  cbn [map fold_right]. rewrite IH. destruct (Nat.eqb (pid b) i); [now rewrite H | reflexivity].
Qed.
Lemma sum_add w k n z c : sum (fun _ => true) (add w k n z c) = sum (fun _ => true) w + Z.of_N n.
Proof.
  rewrite !sum_app. cbn [add pieces reserved]. rewrite fold_right_app. cbn [fold_right psize].
  induction (pieces w) as [ | b bs IH]; cbn [fold_right]; lia.
Qed.

Lemma on_hot p i f : hot p -> (forall h, In h (handles p) -> data (f h) = None -> data h = None) -> (forall h, hkind (f h) = hkind h) ->
  hot (set_handles p (on i f (handles p))).
Proof.
  intros H F G h Ih Dh. cbn [set_handles handles] in Ih. apply in_on in Ih. destruct Ih as [(y & Iy & _ & ->) | (Ih & _)]; [ | now apply H].
  rewrite G. apply H; [exact Iy | now apply F].
Qed.

Lemma step_fits p w o : R p w -> hot p -> legal w o -> sum (fun _ => true) (after w o) + slack <= Z.of_N (limit (after w o)) ->
  exists x p', step p o = Ok (x, p') /\ x <> OutOfMemory /\ hot p'.
Proof.
  intros HR Hh L S. pose proof (R_max _ _ HR) as Mx.
  assert (T : total (handles p) + Z.of_N (reserved w) <= sum (fun _ => true) w).
  { pose proof (total_all _ _ (K_rel _ _ _ _ (R_K _ _ HR))) as T. rewrite sum_app. cbn beta iota in *. lia. }
  destruct o as [n | n | c | i | i k | i d | i | i | l | n | n | ]; cbn [step after] in *.
  - rewrite sum_add in S. cbn [add limit] in S. unfold register_small.
    destruct (obtain_fits p w false n (maximum p) HR) as (p1 & O & Eh); [rewrite Mx; lia | ]. rewrite O. cbn [made].
    eexists _, _. split; [reflexivity | split; [discriminate | ]]. intros h Ih Dh. cbn [new_handle handles] in Ih.
    apply in_app_or in Ih. destruct Ih as [Ih | [<- | []]]; [apply Hh; [now rewrite <- Eh | exact Dh] | discriminate].
  - rewrite room_size in S. rewrite sum_add in S. cbn [add limit] in S. unfold allocate.
    destruct (obtain_fits p w true (allocation_size n) (maximum p) HR) as (p1 & O & Eh); [rewrite Mx; lia | ]. rewrite O. cbn [made].
    eexists _, _. split; [reflexivity | split; [discriminate | ]]. intros h Ih Dh. cbn [new_handle handles] in Ih.
    apply in_app_or in Ih. destruct Ih as [Ih | [<- | []]]; [apply Hh; [now rewrite <- Eh | exact Dh] | discriminate].
  - unfold register_block. eexists _, _. split; [reflexivity | split; [discriminate | ]]. intros h Ih Dh. cbn [new_handle handles] in Ih.
    apply in_app_or in Ih. destruct Ih as [Ih | [<- | []]]; [now apply Hh | reflexivity].
  - destruct L as (b & L). pose proof (rel_pair p w i HR) as G. rewrite L in G. rewrite (sum_change i (fun b => more b 1)) in S by reflexivity. cbn [change limit] in S.
    unfold pin. destruct (get i (handles p)) as [h | ] eqn:Gh; [ | destruct G]. destruct (loaded h) eqn:Lh.
    + cbn [rbind said]. eexists _, _. split; [reflexivity | split; [discriminate | ]]. apply on_hot; auto.
    + assert (Dh : data h = None) by (unfold loaded in Lh; now destruct (data h)). apply get_some in Gh. destruct Gh as (Ih & Eh').
      pose proof (total_cold _ _ h (K_rel _ _ _ _ (R_K _ _ HR)) Ih Dh) as T2.
      assert (S2 : total (handles p) + Z.of_N (size h) + Z.of_N (reserved w) <= sum (fun _ => true) w) by (rewrite sum_app; cbn beta iota in *; lia).
      destruct (obtain_fits p w true (size h) (maximum p) HR) as (p1 & O & Eh); [rewrite Mx; lia | ]. rewrite O, (Hh h Ih Dh). cbn [rbind said].
      eexists _, _. split; [reflexivity | split; [discriminate | ]]. apply on_hot; auto; [ | discriminate].
      intros x Ix Dx. apply Hh; [now rewrite <- Eh | exact Dx].
  - destruct L as (b & L & Pb). pose proof (rel_pair p w i HR) as G. rewrite L in G. unfold unpin.
    destruct (get i (handles p)) as [h | ]; [ | destruct G]. destruct (negb (loaded h) || kind_eqb (hkind h) Tiny); cbn [rbind].
    + eexists _, _. split; [reflexivity | split; [discriminate | exact Hh]].
    + assert (H2 : hot (set_handles p (on i fewer_readers (handles p)))) by (apply on_hot; auto).
      destruct (_ =? 0); cbn [rbind]; (eexists _, _; split; [reflexivity | split; [discriminate | exact H2]]).
  - destruct L as (b & L & Pb & Kb). destruct (write_ok p w i d b HR L Pb Kb) as (p1 & E1 & R1). rewrite E1. cbn [rbind].
    eexists _, _. split; [reflexivity | split; [discriminate | ]]. unfold write in E1. destruct (get i (handles p)) as [h | ]; [ | discriminate].
    destruct (loaded h); [ | discriminate]. injection E1 as <-. apply on_hot; auto. discriminate.
  - destruct L as (b & L & Pb & Cb). destruct (content b) as [c | ] eqn:Ec; [ | congruence].
    rewrite (read_ok p w i b c HR L Pb Ec). cbn [rbind]. exists (Bytes c), p. split; [reflexivity | split; [discriminate | exact Hh]].
  - destruct L as (b & L & Pb). destruct (release_ok p w i b HR L) as (p1 & E1 & R1). rewrite E1. cbn [rbind].
    eexists _, _. split; [reflexivity | split; [discriminate | ]]. unfold release in E1. destruct (get i (handles p)) as [h | ]; [ | discriminate].
    injection E1 as <-. intros x Ix. cbn [set_handles handles] in Ix. apply filter_In in Ix. now apply Hh.
  - unfold set_limit. change (sum (fun _ => true) {| pieces := pieces w; count := count w; reserved := reserved w; limit := l |}) with (sum (fun _ => true) w) in S.
    cbn [limit] in S. destruct (obtain_fits p w false 0 l HR) as (p1 & O & Eh); [lia | ]. rewrite O. cbn [said].
    eexists _, _. split; [reflexivity | split; [discriminate | ]]. intros x Ix. cbn [handles] in Ix. rewrite Eh in Ix. now apply Hh.
  - unfold reserve. destruct (N.eqb_spec n 0) as [-> | N0]; cbn [said].
    + eexists _, _. split; [reflexivity | split; [discriminate | exact Hh]].
    + rewrite sum_app in S. cbn [pieces reserved limit] in S. rewrite sum_app in T. cbn beta iota in *.
      destruct (obtain_fits p w false n (maximum p) HR) as (p1 & O & Eh); [rewrite Mx; lia | ]. rewrite O. cbn [said].
      eexists _, _. split; [reflexivity | split; [discriminate | ]]. intros x Ix. rewrite Eh in Ix. now apply Hh.
  - eexists _, _. split; [reflexivity | split; [discriminate | ]]. unfold free. destruct (N.eqb n 0); [exact Hh | ].
    intros x Ix. rewrite (proj1 (add_memory_rest p _)) in Ix. now apply Hh.
  - unfold used_memory. eexists _, _. split; [reflexivity | split; [discriminate | ]]. exact Hh.
Qed.
Lemma run_fits : forall ops p w, R p w -> hot p -> roomy w ops ->
  exists outs p', run p ops = Ok (outs, p') /\ ~ In OutOfMemory outs.
Proof.
  induction ops as [ | o ops IH]; intros p w HR Hh Rm; cbn [run].
  - exists [], p. split; [reflexivity | intros []].
  - destruct Rm as (L & S & Rm). destruct (step_fits p w o HR Hh L S) as (x & p1 & E & Nx & H1).
    destruct (step_ok p w o x p1 HR L E) as (_ & _ & R1).
    assert (Ea : after_out w o x = after w o) by (destruct x; try reflexivity; congruence). rewrite Ea in R1.
    destruct (IH p1 _ R1 H1 Rm) as (xs & p2 & E2 & N2). exists (x :: xs), p2. rewrite E. cbn [rbind]. rewrite E2. cbn [rbind].
    split; [reflexivity | ]. intros [J | J]; [congruence | contradiction].
Qed.
