From Verif Require Import Bytes Outcome GlobModel GlobProofs JsonPtrModel JsonPtrSpec.

#[local] Arguments beq : simpl never.

Lemma beq_false a b : beq a b = false <-> a <> b.
Proof.
  split.
  - intros H E. subst. rewrite beq_refl in H. discriminate.
  - intros H. destruct (beq a b) eqn:E; [|reflexivity]. apply beq_eq in E. contradiction.
Qed.

Lemma find_char_app c p s : Forall (fun x => x <> c) p ->
  find_char c (p ++ s) = match find_char c s with Some i => Some (length p + i)%nat | None => None end.
Proof.
  induction 1 as [|x p Hx _ IH]; cbn.
  - destruct (find_char c s); reflexivity.
  - apply beq_false in Hx. rewrite Hx, IH. destruct (find_char c s); reflexivity.
Qed.

Lemma find_char_None c s : find_char c s = None -> Forall (fun x => x <> c) s.
Proof.
  induction s as [|x s IH]; intros H; [constructor|]. cbn in H.
  destruct (beq x c) eqn:E; [discriminate|]. destruct (find_char c s); [discriminate|].
  constructor; [apply beq_false; exact E|apply IH; reflexivity].
Qed.

Lemma find_char_split c s : forall i, find_char c s = Some i ->
  exists p r, s = p ++ c :: r /\ length p = i /\ Forall (fun x => x <> c) p.
Proof.
  induction s as [|x s IH]; intros i H; [discriminate|]. cbn in H.
  destruct (beq x c) eqn:E.
  - injection H as <-. apply beq_eq in E. subst. exists [], s. auto.
  - destruct (find_char c s) as [j|] eqn:F; [|discriminate]. injection H as <-.
    destruct (IH j eq_refl) as (p & r & -> & L & FA). exists (x :: p), r. cbn.
    repeat split; auto. constructor; auto. apply beq_false. exact E.
Qed.

Definition lift (pre : list byte) (o : option (list byte)) : option (list byte) :=
  match o with Some k => Some (pre ++ k) | None => None end.

(** what one decoding step leaves, as a structural function *)
Fixpoint dec (s : list byte) : option (list byte) :=
  match s with
  | [] => Some []
  | x :: r =>
    if beq x tilde then
      match r with
      | y :: r' => if beq y zero_c then lift [tilde] (dec r')
                   else if beq y one_c then lift [slash] (dec r') else None
      | [] => None
      end
    else lift [x] (dec r)
  end.

Lemma lift_lift a b o : lift a (lift b o) = lift (a ++ b) o.
Proof. destruct o; cbn; [rewrite app_assoc|]; reflexivity. Qed.

Lemma dec_plain p s : Forall (fun x => x <> tilde) p -> dec (p ++ s) = lift p (dec s).
Proof.
  induction 1 as [|x p Hx _ IH]; cbn [app dec].
  - destruct (dec s); reflexivity.
  - apply beq_false in Hx. rewrite Hx, IH. apply lift_lift.
Qed.

Lemma nth_error_mid {A} (p : list A) x r : nth_error (p ++ x :: r) (length p) = Some x.
Proof. rewrite nth_error_app2, Nat.sub_diag by lia. reflexivity. Qed.

Lemma loop_dec : forall n r p, (length r <= n)%nat ->
  (forall fuel, (2 * length r + 1 < fuel)%nat ->
    unescape_loop fuel (p ++ tilde :: r) (length p) = Ok (lift p (dec (tilde :: r)))) .
Proof.
  induction n as [|n IH]; intros r p Hn fuel Hf.
  - destruct r; [|cbn in Hn; lia]. destruct fuel as [|f]; [lia|]. cbn [unescape_loop].
    replace (nth_error (p ++ [tilde]) (length p + 1)) with (@None byte); [reflexivity|].
    symmetry. apply nth_error_None. rewrite app_length. cbn. lia.
  - destruct fuel as [|f]; [lia|]. cbn [unescape_loop].
    destruct r as [|y r].
    + replace (nth_error (p ++ [tilde]) (length p + 1)) with (@None byte); [reflexivity|].
      symmetry. apply nth_error_None. rewrite app_length. cbn. lia.
    + replace (nth_error (p ++ tilde :: y :: r) (length p + 1)) with (Some y).
      2:{ replace (length p + 1)%nat with (length (p ++ [tilde])) by (rewrite app_length; reflexivity).
          replace (p ++ tilde :: y :: r) with ((p ++ [tilde]) ++ y :: r) by (rewrite <- app_assoc; reflexivity).
          symmetry. apply nth_error_mid. }
      assert (NEXT : forall c, unescape_next f (replace2 (p ++ tilde :: y :: r) (length p) c) (length p)
                         = Ok (lift (p ++ [c]) (dec r))).
      { intros c. unfold replace2.
        rewrite firstn_app, firstn_all, Nat.sub_diag. cbn [firstn]. rewrite app_nil_r.
        rewrite skipn_app, skipn_all2 by lia. replace (length p + 2 - length p)%nat with 2%nat by lia. cbn [skipn app].
        destruct f as [|f]; [cbn in Hf; lia|]. cbn [unescape_next]. unfold find_from.
        replace (p ++ c :: r) with ((p ++ [c]) ++ r) by (rewrite <- app_assoc; reflexivity).
        replace (length p + 1)%nat with (length (p ++ [c])) by (rewrite app_length; reflexivity).
        rewrite skipn_app, skipn_all, Nat.sub_diag. cbn [skipn app].
        destruct (find_char tilde r) as [i|] eqn:F.
        - destruct (find_char_split _ _ _ F) as (q & r' & -> & <- & FA).
          rewrite app_assoc, <- app_length. rewrite IH.
          + rewrite dec_plain by exact FA. rewrite lift_lift. reflexivity.
          + cbn in Hn. rewrite app_length in Hn. cbn in Hn. lia.
          + cbn in Hf. rewrite app_length in Hf. cbn in Hf. lia.
        - apply find_char_None in F. pose proof (dec_plain r [] F) as D. rewrite app_nil_r in D. rewrite D.
          cbn. rewrite app_nil_r. reflexivity. }
      change (dec (tilde :: y :: r)) with
        (if beq y zero_c then lift [tilde] (dec r) else if beq y one_c then lift [slash] (dec r) else None).
      destruct (beq y zero_c); [rewrite NEXT, lift_lift; reflexivity|].
      destruct (beq y one_c); [rewrite NEXT, lift_lift; reflexivity|]. reflexivity.
Qed.

Lemma unescape_dec s : unescape_key s = Ok (dec s).
Proof.
  unfold unescape_key. destruct (find_char tilde s) as [i|] eqn:F.
  - destruct (find_char_split _ _ _ F) as (p & r & -> & <- & FA).
    rewrite (loop_dec (length r)).
    + rewrite dec_plain by exact FA. reflexivity.
    + lia.
    + rewrite app_length. cbn [length]. lia.
  - apply find_char_None in F. pose proof (dec_plain s [] F) as D. rewrite app_nil_r in D. rewrite D.
    cbn. rewrite app_nil_r. reflexivity.
Qed.

Lemma dec_unesc : forall n s k, (length s <= n)%nat -> (dec s = Some k <-> unesc s k).
Proof.
  induction n as [|n IH]; intros s k H.
  - destruct s; [|cbn in H; lia]. cbn. split; [intros E; injection E as <-; constructor|intros E; inversion E; reflexivity].
  - destruct s as [|x s]; [cbn; split; [intros E; injection E as <-; constructor|intros E; inversion E; reflexivity]|].
    cbn in H. cbn [dec]. destruct (beq x tilde) eqn:E.
    + apply beq_eq in E. subst. destruct s as [|y s].
      * split; [discriminate|]. intros U. inversion U; subst; contradiction.
      * destruct (beq y zero_c) eqn:E0; [apply beq_eq in E0; subst|destruct (beq y one_c) eqn:E1; [apply beq_eq in E1; subst|]].
        -- split.
           ++ destruct (dec s) as [k'|] eqn:D; [|discriminate]. cbn. intros X. injection X as <-.
              apply U_tilde. apply IH; [cbn in H; lia|exact D].
           ++ intros U. inversion U; subst; [contradiction|]. apply IH in H1; [|cbn in H; lia]. rewrite H1. reflexivity.
        -- split.
           ++ destruct (dec s) as [k'|] eqn:D; [|discriminate]. cbn. intros X. injection X as <-.
              apply U_slash. apply IH; [cbn in H; lia|exact D].
           ++ intros U. inversion U; subst; [contradiction|]. apply IH in H1; [|cbn in H; lia]. rewrite H1. reflexivity.
        -- split; [discriminate|]. intros U. inversion U; subst; [contradiction| |].
           ++ rewrite beq_refl in E0. discriminate.
           ++ rewrite beq_refl in E1. discriminate.
    + split.
      * destruct (dec s) as [k'|] eqn:D; [|discriminate]. cbn. intros X. injection X as <-.
        constructor; [apply beq_false; exact E|]. apply IH; [lia|exact D].
      * intros U. inversion U; subst; try (rewrite beq_refl in E; discriminate).
        apply IH in H4; [|lia]. rewrite H4. reflexivity.
Qed.

Lemma unescape_spec s : exists o, unescape_key s = Ok o /\ (forall k, o = Some k <-> unesc s k).
Proof.
  exists (dec s). split; [apply unescape_dec|]. intros k. apply (dec_unesc (length s)). lia.
Qed.

Lemma unesc_app a b k1 k2 : unesc a k1 -> unesc b k2 -> unesc (a ++ b) (k1 ++ k2).
Proof. intros H. revert b k2. induction H; intros b k2 H2; cbn [app]; auto; [apply U_plain|apply U_tilde|apply U_slash]; auto. Qed.

Lemma unesc_esc k : unesc (esc k) k.
Proof.
  induction k as [|c k IH]; [constructor|]. unfold esc. cbn [flat_map]. change (c :: k) with ([c] ++ k).
  apply unesc_app; [|exact IH]. unfold esc1.
  destruct (N.eqb_spec (N_of_byte c) 126) as [E|E].
  - replace c with tilde; [apply U_tilde; constructor|].
    rewrite <- (byte_of_N_of_byte c), E. reflexivity.
  - destruct (N.eqb_spec (N_of_byte c) 47) as [F|F].
    + replace c with slash; [apply U_slash; constructor|]. rewrite <- (byte_of_N_of_byte c), F. reflexivity.
    + constructor; [|constructor]. intros ->. apply E. reflexivity.
Qed.

Lemma unescape_esc k : unescape_key (esc k) = Ok (Some k).
Proof. rewrite unescape_dec. f_equal. apply (dec_unesc (length (esc k))); [lia|apply unesc_esc]. Qed.

Lemma esc_noslash k : Forall (fun x => x <> slash) (esc k).
Proof.
  induction k as [|c k IH]; [constructor|]. unfold esc. cbn [flat_map]. apply Forall_app. split; [|exact IH].
  unfold esc1. destruct (N.eqb_spec (N_of_byte c) 126) as [E|E].
  - repeat constructor; discriminate.
  - destruct (N.eqb_spec (N_of_byte c) 47) as [F|F]; [repeat constructor; discriminate|].
    constructor; [|constructor]. intros ->. apply F. reflexivity.
Qed.

Lemma split_noslash p : Forall (fun x => x <> slash) p -> split slash p = [p].
Proof.
  induction 1 as [|x p H _ IH]; [reflexivity|]. cbn [split]. apply beq_false in H. rewrite H, IH. reflexivity.
Qed.
Lemma split_cons p r : Forall (fun x => x <> slash) p -> split slash (p ++ slash :: r) = p :: split slash r.
Proof.
  induction 1 as [|x p H _ IH]; cbn [app split].
  - reflexivity.
  - apply beq_false in H. rewrite H, IH. reflexivity.
Qed.

Lemma raw_keys_pointer ks : raw_keys (to_pointer ks) = map esc ks.
Proof.
  destruct ks as [|k ks]; [reflexivity|]. unfold to_pointer. cbn [flat_map app raw_keys].
  rewrite beq_refl. cbn [map]. fold (to_pointer ks). revert k.
  induction ks as [|k2 ks IH]; intros k.
  - cbn. rewrite app_nil_r. apply split_noslash, esc_noslash.
  - unfold to_pointer. cbn [flat_map]. fold (to_pointer ks). rewrite <- app_comm_cons.
    rewrite split_cons by apply esc_noslash. cbn [map]. f_equal. apply IH.
Qed.

Lemma find_last_noslash p : Forall (fun x => x <> slash) p -> find_last slash p = None.
Proof. induction 1 as [|x p H _ IH]; [reflexivity|]. cbn [find_last]. apply beq_false in H. rewrite IH, H. reflexivity. Qed.
Lemma find_last_app a p : Forall (fun x => x <> slash) p -> find_last slash (a ++ slash :: p) = Some (length a).
Proof.
  intros H. induction a as [|x a IH]; cbn [app find_last length].
  - rewrite find_last_noslash by exact H. reflexivity.
  - rewrite IH. reflexivity.
Qed.

Lemma container_split_pointer ks k : container_split (to_pointer (ks ++ [k])) = Ok (to_pointer ks, esc k).
Proof.
  unfold to_pointer. rewrite flat_map_app. cbn [flat_map]. rewrite app_nil_r.
  fold (to_pointer ks). unfold container_split. rewrite find_last_app by apply esc_noslash.
  rewrite nth_error_mid, beq_refl. f_equal. f_equal.
  - rewrite firstn_app, firstn_all, Nat.sub_diag. cbn. apply app_nil_r.
  - rewrite skipn_app, skipn_all2 by lia. replace (length (to_pointer ks) + 1 - length (to_pointer ks))%nat with 1%nat by lia.
    reflexivity.
Qed.
