(** * Comparison operators: specification and lemmas. *)

From stdpp Require Import base gmap list.
From Verif Require Import Lang Common Indirect20 Indirect14 Client Spec Rep Effect RunLemmas Refine Headers
  Hist OpProps Compare.
Local Open Scope res_scope.

(** ** Specification: an indirect object compares like an optional value, none at the bottom. *)

(** What the object contains. *)
Definition contains {E} (s : store E) (x : wl) (o : option (eV E)) : Prop :=
  match o with
  | Some v => exists l t a, owns s x l t v a
  | None => exists a, valueless_at s x a
  end.

(** Truth of [x r y] for [x], [y] being: both valueless; only [x]; only [y]. *)
Definition both_none (r : rel) : bool := match r with REq | RLe | RGe => true | _ => false end.
Definition left_none (r : rel) : bool := match r with RNe | RLt | RLe => true | _ => false end.
Definition right_none (r : rel) : bool := match r with RNe | RGt | RGe => true | _ => false end.

Definition lifted {V W} (r : rel) (p : V -> W -> res bool) (x : option V) (y : option W) : res bool :=
  match x, y with
  | Some v, Some w => p v w
  | None, None => VOk (both_none r)
  | None, Some _ => VOk (left_none r)
  | Some _, None => VOk (right_none r)
  end.

(** The value type's own [v r w] in C++14, and in terms of its [==] and three-way comparison in C++20. *)
Definition own_rel {V W} (C : cmp V W) (r : rel) : V -> W -> res bool :=
  match r with REq => v_eq C | RNe => v_ne C | RLt => v_lt C | RGt => v_gt C | RLe => v_le C | RGe => v_ge C end.

Definition tw_rel (r : rel) : ordering -> bool :=
  match r with
  | RLt => is_lt | RGt => is_gt | RLe => is_le | RGe => is_ge
  | REq => fun o => bool_decide (o = Equiv) | RNe => fun o => negb (bool_decide (o = Equiv))
  end.

Definition value_rel {V W} (g : gen) (C : cmp V W) (C' : cmp W V) (r : rel) (v : V) (w : W) : res bool :=
  match g, r with
  | Cxx14, _ => own_rel C r v w
  | Cxx20, REq => v_eq C v w
  | Cxx20, RNe => rnot (v_eq C v w)
  | Cxx20, _ => o <- Compare20.synth_three_way C C' v w ; VOk (tw_rel r o)
  end.

(** The mirrored relation: [x r y] is [y (mirror r) x]. *)
Definition mirror (r : rel) : rel :=
  match r with REq => REq | RNe => RNe | RLt => RGt | RGt => RLt | RLe => RGe | RGe => RLe end.
Definition flip_ord (o : ordering) : ordering :=
  match o with Less => Greater | Greater => Less | _ => o end.

(** Composition of orderings, where it is determined. *)
Definition comp (a b : ordering) : option ordering :=
  match a, b with
  | Less, Less | Less, Equiv | Equiv, Less => Some Less
  | Greater, Greater | Greater, Equiv | Equiv, Greater => Some Greater
  | Equiv, Equiv => Some Equiv
  | _, _ => None
  end.

(** A strict weak order, as associative containers require. *)
Record strict_weak {X} (R : X -> X -> Prop) : Prop := {
  sw_irrefl x : ~ R x x;
  sw_trans x y z : R x y -> R y z -> R x z;
  sw_incomp x y z : ~ R x y -> ~ R y x -> ~ R y z -> ~ R z y -> ~ R x z /\ ~ R z x;
}.

(** The same among the elements satisfying [P]. *)
Record strict_weak_on {X} (P : X -> Prop) (R : X -> X -> Prop) : Prop := {
  swo_irrefl x : P x -> ~ R x x;
  swo_trans x y z : P x -> P y -> P z -> R x y -> R y z -> R x z;
  swo_incomp x y z : P x -> P y -> P z -> ~ R x y -> ~ R y x -> ~ R y z -> ~ R z y -> ~ R x z /\ ~ R z x;
}.

(** The value type's operators fit together: [!=] is the negation of [==], and the relational operators
    are those of the three-way comparison. *)
Record consistent {V W} (C : cmp V W) (C' : cmp W V) : Prop := {
  co_ne v w : v_ne C v w = rnot (v_eq C v w);
  co_rel r v w : (match r with REq | RNe => False | _ => True end) ->
    own_rel C r v w = (o <- Compare20.synth_three_way C C' v w ; VOk (tw_rel r o));
}.

(** Swapping the operands. *)
Record symmetric_cmp {V W} (C : cmp V W) (C' : cmp W V) : Prop := {
  sy_eq v w : v_eq C v w = v_eq C' w v;
  sy_tw v w : Compare20.synth_three_way C' C w v = (o <- Compare20.synth_three_way C C' v w ; VOk (flip_ord o));
}.

(** ** The operators compute it *)

Section operands.
Context {E : Env}.
Implicit Types s : store E.

Lemma gen_header (g : gen) : exists h, header_cls h = Ind /\ gen_impl (E := E) g = header_impl h.
Proof. destruct g; [by exists HInd14|by exists HInd20]. Qed.

Lemma observers s x o g :
  Inv Ind s -> contains s x o ->
  run (i_valueless (gen_impl g) x) s = ORet (match o with None => true | _ => false end) s /\
  match o with
  | Some v => run (l <- i_star (gen_impl g) x ; o <- act (PReadObj (RBlk l)) ; Ret o.2)%prog s = ORet v s
  | None => run (l <- i_star (gen_impl g) x ; o <- act (PReadObj (RBlk l)) ; Ret o.2)%prog s = OUB UBNull
  end.
Proof.
  intros HI Hc. unfold contains, owns, valueless_at in Hc.
  destruct o as [v|].
  - destruct Hc as (l & t & a & Hx).
    pose proof (rep_lookup _ _ _ _ _ _ _ HI Hx) as HW.
    destruct (rep_own _ _ _ _ HI _ _ _ _ _ Hx) as (b & Hb & Hba & Ho & Hty & Hhd & _).
    destruct s as [B W X O tr]. cbn [blocks wraps] in *.
    destruct g; cbn [gen_impl indirect14 indirect20 i_valueless i_star];
      unfold Indirect20.valueless_after_move, Indirect14.valueless_after_move,
        Indirect20.op_star, Indirect14.op_star, deref_p;
      (split; ex; rewrite HW; unfold to_wrapper; ex; [done|]);
      unfold deref; ex; rewrite Hb; ex; by rewrite Ho.
  - destruct Hc as (a & Hx).
    pose proof (rep_lookup _ _ _ _ _ _ _ HI Hx) as HW.
    destruct s as [B W X O tr]. cbn [blocks wraps] in *.
    destruct g; cbn [gen_impl indirect14 indirect20 i_valueless i_star];
      unfold Indirect20.valueless_after_move, Indirect14.valueless_after_move,
        Indirect20.op_star, Indirect14.op_star, deref_p;
      (split; ex; rewrite HW; unfold to_wrapper; by ex).
Qed.

Lemma star_run s x v g :
  Inv Ind s -> contains s x (Some v) -> exists l, run (i_star (gen_impl g) x) s = ORet l s.
Proof.
  intros HI (l & t & a & Hx).
  pose proof (rep_lookup _ _ _ _ _ _ _ HI Hx) as HW.
  destruct s as [B W X O tr]. cbn [blocks wraps] in *. exists l.
  destruct g; cbn [gen_impl indirect14 indirect20 i_star];
    unfold Indirect20.op_star, Indirect14.op_star, deref_p;
    ex; rewrite HW; unfold to_wrapper; by ex.
Qed.

Lemma operand_spec s x o g :
  Inv Ind s -> contains s x o ->
  operand_of (gen_impl g) s x =
    mkOperand (VOk (match o with None => true | _ => false end)) (match o with Some v => VOk v | None => VBad end).
Proof.
  intros HI Hc. destruct (observers s x o g HI Hc) as [H1 H2].
  unfold operand_of. rewrite H1. destruct o; by rewrite H2.
Qed.

End operands.

(** The operand holding an optional value. *)
Definition opd {V} (o : option V) : operand V :=
  mkOperand (VOk (match o with None => true | _ => false end)) (match o with Some v => VOk v | None => VBad end).

Section laws.
Context {V W : Type} (C : cmp V W) (C' : cmp W V).

Lemma compare_opd g r (x : option V) (y : option W) :
  compare g C C' r (opd x) (opd y) = lifted r (value_rel g C C' r) x y.
Proof. by destruct g, r, x, y. Qed.

Lemma tw_opd (x : option V) (y : option W) :
  Compare20.op_tw C C' (opd x) (opd y) =
  match x, y with
  | Some v, Some w => Compare20.synth_three_way C C' v w
  | None, None => VOk Equiv | None, Some _ => VOk Less | Some _, None => VOk Greater
  end.
Proof. by destruct x, y. Qed.

Lemma compare_val_opd g r (x : option V) (u : W) :
  compare_val g C C' r (opd x) u =
  match x with Some v => value_rel g C C' r v u | None => VOk (left_none r) end.
Proof. by destruct g, r, x. Qed.

Lemma val_compare_opd g r (x : option V) (u : W) :
  val_compare g C C' r u (opd x) =
  match x with
  | Some v => match g with Cxx14 => own_rel C' r u v | Cxx20 => value_rel g C C' (mirror r) v u end
  | None => VOk (right_none r)
  end.
Proof. by destruct g, r, x. Qed.

Lemma hash_opd g (H : V -> res N) (x : option V) :
  hash_of g H (opd x) = match x with Some v => H v | None => VOk (N.ones 64) end.
Proof. by destruct g, x. Qed.

Lemma value_rel_agree r v w :
  consistent C C' -> value_rel Cxx14 C C' r v w = value_rel Cxx20 C C' r v w.
Proof.
  intros HC. destruct r; simpl; try done.
  - apply HC.
  - by apply (co_rel _ _ HC RLt).
  - by apply (co_rel _ _ HC RGt).
  - by apply (co_rel _ _ HC RLe).
  - by apply (co_rel _ _ HC RGe).
Qed.

End laws.

Lemma value_rel_mirror {V W} (C : cmp V W) (C' : cmp W V) r v w :
  symmetric_cmp C C' -> value_rel Cxx20 C C' r v w = value_rel Cxx20 C' C (mirror r) w v.
Proof.
  intros HS. destruct r; simpl; rewrite ?(sy_eq _ _ HS), ?(sy_tw _ _ HS); try done;
  destruct (Compare20.synth_three_way C C' v w) as [[]| |]; done.
Qed.

Lemma symmetric_sym {V W} (C : cmp V W) (C' : cmp W V) : symmetric_cmp C C' -> symmetric_cmp C' C.
Proof.
  intros HS. split.
  - intros v w. by rewrite (sy_eq _ _ HS).
  - intros v w. rewrite (sy_tw _ _ HS). by destruct (Compare20.synth_three_way C C' w v) as [[]| |].
Qed.

(** When there is no [<=>]: conditions on [<] and the other operators. *)
Record lt_consistent {V W} (C : cmp V W) (C' : cmp W V) : Prop := {
  lc_none : v_tw C = None;
  lc_none' : v_tw C' = None;
  lc_lt v w : exists b, v_lt C v w = VOk b;
  lc_lt' v w : exists b, v_lt C' w v = VOk b;
  lc_asym v w : v_lt C v w = VOk true -> v_lt C' w v = VOk false;
  lc_ne v w : v_ne C v w = rnot (v_eq C v w);
  lc_gt v w : v_gt C v w = v_lt C' w v;
  lc_le v w : v_le C v w = rnot (v_lt C' w v);
  lc_ge v w : v_ge C v w = rnot (v_lt C v w);
}.

Lemma lt_consistent_consistent {V W} (C : cmp V W) (C' : cmp W V) : lt_consistent C C' -> consistent C C'.
Proof.
  intros H. split; [apply H|]. intros r v w Hr.
  unfold Compare20.synth_three_way. rewrite (lc_none _ _ H).
  destruct (lc_lt _ _ H v w) as [b Hb]. destruct (lc_lt' _ _ H v w) as [b' Hb'].
  pose proof (lc_asym _ _ H v w) as Has.
  destruct b.
  - specialize (Has Hb). rewrite Hb. simpl.
    destruct r; try done; simpl; rewrite ?(lc_gt _ _ H), ?(lc_le _ _ H), ?(lc_ge _ _ H), ?Hb, ?Has; done.
  - rewrite Hb. simpl. rewrite Hb'. simpl.
    destruct r; try done; simpl; rewrite ?(lc_gt _ _ H), ?(lc_le _ _ H), ?(lc_ge _ _ H), ?Hb, ?Hb'; by destruct b'.
Qed.

Lemma lt_consistent_symmetric {V W} (C : cmp V W) (C' : cmp W V) :
  lt_consistent C C' -> (forall v w, v_eq C v w = v_eq C' w v) ->
  symmetric_cmp C C'.
Proof.
  intros H He. split; [done|]. intros v w.
  unfold Compare20.synth_three_way. rewrite (lc_none _ _ H), (lc_none' _ _ H).
  destruct (lc_lt _ _ H v w) as [b Hb]. destruct (lc_lt' _ _ H v w) as [b' Hb'].
  pose proof (lc_asym _ _ H v w) as Has. rewrite Hb, Hb' in *.
  destruct b, b'; simpl; try done. by specialize (Has eq_refl).
Qed.

(** ** Laws *)

Section eqlaws.
Lemma eq_trans_opd {V1 V2 V3} (C12 : cmp V1 V2) (C21 : cmp V2 V1) (C23 : cmp V2 V3) (C32 : cmp V3 V2)
    (C13 : cmp V1 V3) (C31 : cmp V3 V1) g x y z :
  (forall u v w, v_eq C12 u v = VOk true -> v_eq C23 v w = VOk true -> v_eq C13 u w = VOk true) ->
  compare g C12 C21 REq (opd x) (opd y) = VOk true ->
  compare g C23 C32 REq (opd y) (opd z) = VOk true ->
  compare g C13 C31 REq (opd x) (opd z) = VOk true.
Proof.
  intros H. rewrite !compare_opd. destruct x, y, z; simpl; try done.
  assert (Hv : forall A B (D : cmp A B) D' v w, value_rel g D D' REq v w = v_eq D v w) by (by destruct g).
  rewrite !Hv. apply H.
Qed.
End eqlaws.

(** The relation [x < y] on optional values. *)
Lemma strict_weak_opd {V} (C : cmp V V) g (lt : V -> V -> bool) :
  (forall v w, value_rel g C C RLt v w = VOk (lt v w)) ->
  strict_weak (fun v w => lt v w = true) ->
  strict_weak (fun x y => compare g C C RLt (opd x) (opd y) = VOk true).
Proof.
  intros Hv HS. split.
  - intros x. rewrite compare_opd. destruct x as [v|]; simpl; [|done].
    rewrite Hv. intros [= H]. by apply (sw_irrefl _ HS v).
  - intros x y z. rewrite !compare_opd. destruct x as [u|], y as [v|], z as [w|]; simpl; try done.
    rewrite !Hv. intros [= H1] [= H2]. by rewrite (sw_trans _ HS u v w).
  - intros x y z. rewrite !compare_opd. destruct x as [u|], y as [v|], z as [w|]; simpl; try done.
    rewrite !Hv. intros H1 H2 H3 H4.
    destruct (sw_incomp _ HS u v w) as [H5 H6]; try (intros Hlt; rewrite Hlt in *; done).
    split; intros [= H]; done.
Qed.

Lemma tw_comp_opd {V1 V2 V3} (C12 : cmp V1 V2) (C21 : cmp V2 V1) (C23 : cmp V2 V3) (C32 : cmp V3 V2)
    (C13 : cmp V1 V3) (C31 : cmp V3 V1) x y z a b c :
  (forall u v w a b c, Compare20.synth_three_way C12 C21 u v = VOk a ->
     Compare20.synth_three_way C23 C32 v w = VOk b -> comp a b = Some c ->
     Compare20.synth_three_way C13 C31 u w = VOk c) ->
  Compare20.op_tw C12 C21 (opd x) (opd y) = VOk a ->
  Compare20.op_tw C23 C32 (opd y) (opd z) = VOk b -> comp a b = Some c ->
  Compare20.op_tw C13 C31 (opd x) (opd z) = VOk c.
Proof.
  intros H. rewrite !tw_opd. destruct x as [u|], y as [v|], z as [w|]; try (by apply H).
  all: intros Ha Hb Hc; try simplify_eq/=; try done.
  all: try (destruct b; simplify_eq/=; done). all: try (destruct a; simplify_eq/=; done).
Qed.

(** ** Two value types for the examples *)

(** A partial order on numbers without [<=>]: numbers of different parity are incomparable. *)
Definition parity_cmp : cmp nat nat :=
  let lt v w := Nat.ltb v w && Bool.eqb (Nat.even v) (Nat.even w) in
  mkCmp _ _ (fun v w => VOk (Nat.eqb v w)) (fun v w => VOk (negb (Nat.eqb v w)))
    (fun v w => VOk (lt v w)) (fun v w => VOk (lt w v))
    (fun v w => VOk (lt v w || Nat.eqb v w)) (fun v w => VOk (lt w v || Nat.eqb v w)) None.

Lemma parity_le v w :
  v_le parity_cmp v w = VOk true <-> v <= w /\ Nat.even v = Nat.even w.
Proof.
  simpl. split.
  - intros [= H]. apply orb_true_iff in H as [H|H].
    + apply andb_true_iff in H as [H1%Nat.ltb_lt H2%Bool.eqb_prop]. split; [lia|done].
    + apply Nat.eqb_eq in H as ->. done.
  - intros [H1 H2]. f_equal. rewrite H2, Bool.eqb_reflx, andb_true_r. apply orb_true_iff.
    destruct (decide (v = w)) as [->|]; [right; apply Nat.eqb_refl|left; apply Nat.ltb_lt; lia].
Qed.

Lemma parity_trans u v w :
  v_le parity_cmp u v = VOk true -> v_le parity_cmp v w = VOk true -> v_le parity_cmp u w = VOk true.
Proof. rewrite !parity_le. intros [? ?] [? ?]. split; [lia|congruence]. Qed.

Lemma parity_antisym u v :
  v_le parity_cmp u v = VOk true -> v_le parity_cmp v u = VOk true -> v_eq parity_cmp u v = VOk true.
Proof. rewrite !parity_le. intros [? ?] [? ?]. simpl. f_equal. apply Nat.eqb_eq. lia. Qed.

Lemma parity_lt u v :
  v_lt parity_cmp u v = (b <- v_le parity_cmp u v ; c <- v_ne parity_cmp u v ; VOk (b && c)).
Proof.
  simpl. f_equal. destruct (Nat.eqb_spec u v) as [->|Hne].
  - by rewrite Nat.ltb_irrefl, andb_false_r.
  - by rewrite orb_false_r, andb_true_r.
Qed.

(** Numbers, with or without [<=>]. *)
Definition nat_tw (v w : nat) : ordering :=
  match Nat.compare v w with Lt => Less | Eq => Equiv | Gt => Greater end.
Definition nat_cmp (tw : bool) : cmp nat nat :=
  mkCmp _ _ (fun v w => VOk (Nat.eqb v w)) (fun v w => VOk (negb (Nat.eqb v w)))
    (fun v w => VOk (Nat.ltb v w)) (fun v w => VOk (Nat.ltb w v))
    (fun v w => VOk (Nat.leb v w)) (fun v w => VOk (Nat.leb w v))
    (if tw then Some (fun v w => VOk (nat_tw v w)) else None).

Lemma nat_tw_rel r v w :
  (match r with REq => Nat.eqb v w | RNe => negb (Nat.eqb v w) | RLt => Nat.ltb v w | RGt => Nat.ltb w v
   | RLe => Nat.leb v w | RGe => Nat.leb w v end) = tw_rel r (nat_tw v w).
Proof.
  unfold nat_tw. destruct (Nat.compare_spec v w) as [->|H|H]; destruct r; simpl;
    rewrite ?Nat.eqb_refl, ?Nat.ltb_irrefl, ?Nat.leb_refl; try done;
    try (apply Nat.ltb_lt; lia); try (apply Nat.ltb_ge; lia); try (apply Nat.leb_le; lia);
    try (apply Nat.leb_gt; lia); try (apply Nat.eqb_neq; lia); try (apply negb_true_iff, Nat.eqb_neq; lia).
Qed.

Lemma nat_synth tw v w :
  Compare20.synth_three_way (nat_cmp tw) (nat_cmp tw) v w = VOk (nat_tw v w).
Proof.
  destruct tw; [done|]. unfold Compare20.synth_three_way. simpl.
  pose proof (nat_tw_rel RLt v w) as H1. pose proof (nat_tw_rel RGt v w) as H2. simpl in *.
  rewrite H1, H2. by destruct (nat_tw v w) eqn:H; simpl; unfold nat_tw in H; destruct (Nat.compare v w).
Qed.

Lemma nat_cmp_ok tw :
  consistent (nat_cmp tw) (nat_cmp tw) /\ symmetric_cmp (nat_cmp tw) (nat_cmp tw) /\
  (forall v w, Compare20.synth_three_way (nat_cmp tw) (nat_cmp tw) v w = VOk (nat_tw v w)) /\
  (forall g v w, value_rel g (nat_cmp tw) (nat_cmp tw) RLt v w = VOk (Nat.ltb v w)) /\
  strict_weak (fun v w => Nat.ltb v w = true).
Proof.
  split_and!.
  - split; [done|]. intros r v w Hr. rewrite nat_synth. simpl. rewrite <- nat_tw_rel. by destruct r.
  - split.
    + intros v w. simpl. by rewrite Nat.eqb_sym.
    + intros v w. rewrite !nat_synth. simpl. f_equal. unfold nat_tw.
      rewrite (Nat.compare_antisym v w). by destruct (Nat.compare v w).
  - apply nat_synth.
  - intros [] v w; [done|]. unfold value_rel. rewrite nat_synth. simpl. f_equal. symmetry. apply (nat_tw_rel RLt).
  - split.
    + intros x H%Nat.ltb_lt. lia.
    + intros x y z H1%Nat.ltb_lt H2%Nat.ltb_lt. apply Nat.ltb_lt. lia.
    + intros x y z H1 H2 H3 H4. rewrite Nat.ltb_lt in H1, H2, H3, H4. split; rewrite Nat.ltb_lt; lia.
Qed.
