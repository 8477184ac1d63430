(** * Which comparison operator an expression means: proofs. *)

From stdpp Require Import base gmap list.
From Verif Require Import Lang Common Client Compare CompareProps CompareSelect.

(** ** Selection *)
Lemma elem_of_cands g s1 s2 c :
  c ∈ cands g s1 s2 <-> (cd_t c, cd_a c) ∈ assoc s1 ++ assoc s2 /\ cd_form c ∈ forms g /\ (cd_rev c = true -> g = Cxx20).
Proof.
  unfold cands. rewrite elem_of_list_bind. split.
  - intros ([t a] & Hc & Hin). apply elem_of_list_bind in Hc as (f & Hc & Hf). apply elem_of_list_bind in Hc as (rev & Hc & Hr).
    apply elem_of_list_singleton in Hc as ->. split; [done|]. split; [done|]. cbn. intros ->. destruct g; [|done].
    by apply elem_of_list_singleton in Hr.
  - intros (Hin & Hf & Hr). destruct c as [f t a rev]. cbn in *. exists (t, a). split; [|done].
    apply elem_of_list_bind. exists f. split; [|done]. apply elem_of_list_bind. exists rev. split; [by apply elem_of_list_singleton|].
    destruct g, rev; try (by feed specialize Hr); set_solver.
Qed.
Lemma elem_of_viables g s1 s2 x : x ∈ viables g s1 s2 <-> x.1 ∈ cands g s1 s2 /\ ranks x.1 s1 s2 = Some x.2.
Proof.
  unfold viables. rewrite elem_of_list_omap. split.
  - intros (c & Hc & Hx). destruct (ranks c s1 s2) as [r|] eqn:Hr; [|done]. injection Hx as <-. done.
  - intros [Hc Hr]. exists x.1. split; [done|]. rewrite Hr. by destruct x.
Qed.

Lemma better_asym x y : better x y = true -> better y x = false.
Proof.
  unfold better. destruct (decide (x.2 = y.2)) as [He|Hne].
  - rewrite decide_True by done. destruct (at_least x.1 y.1), (at_least y.1 x.1); try done; by destruct (cd_rev x.1), (cd_rev y.1).
  - rewrite decide_False by (intros H; by apply Hne). destruct x as [? [[] []]], y as [? [[] []]]; cbn; done.
Qed.
Lemma best_spec l x : best l x = true <-> forall y, y ∈ l -> y.1 = x.1 \/ better x y = true.
Proof.
  unfold best. rewrite forallb_forall. setoid_rewrite <- elem_of_list_In. split.
  - intros H y Hy. destruct (orb_prop _ _ (H y Hy)) as [Hb|Hb]; [left; by apply bool_decide_eq_true in Hb|by right].
  - intros H y Hy. destruct (H y Hy) as [->|Hb]; [|rewrite Hb; apply orb_true_r]. rewrite bool_decide_true by done. done.
Qed.
(** The best viable candidate is chosen. *)
Lemma select_best g s1 s2 c r :
  c ∈ cands g s1 s2 -> ranks c s1 s2 = Some r ->
  (forall c' r', c' ∈ cands g s1 s2 -> ranks c' s1 s2 = Some r' -> c' = c \/ better (c, r) (c', r') = true) ->
  select g s1 s2 = Chosen c.
Proof.
  intros Hc Hr Hb. unfold select. assert (Hin : (c, r) ∈ viables g s1 s2) by (by apply elem_of_viables).
  assert (Hbest : best (viables g s1 s2) (c, r) = true).
  { apply best_spec. intros [c' r'] [Hc' Hr']%elem_of_viables. cbn in *. by apply Hb. }
  destruct (viables g s1 s2) as [|v l] eqn:Hl; [by apply elem_of_nil in Hin|]. rewrite <- Hl in *.
  destruct (List.find (best (viables g s1 s2)) (viables g s1 s2)) as [y|] eqn:Hf.
  - apply find_some in Hf as [Hy Hby]. apply elem_of_list_In in Hy.
    destruct (proj1 (best_spec _ _) Hbest y Hy) as [He|Hb1]; [by rewrite He|].
    destruct (proj1 (best_spec _ _) Hby (c, r) Hin) as [He|Hb2]; [by rewrite <- He|].
    apply better_asym in Hb1. congruence.
  - apply elem_of_list_In in Hin. by rewrite (find_none _ _ Hf _ Hin) in Hbest.
Qed.
Lemma select_ambiguous g s1 s2 c r :
  c ∈ cands g s1 s2 -> ranks c s1 s2 = Some r ->
  (forall c' r', c' ∈ cands g s1 s2 -> ranks c' s1 s2 = Some r' ->
     exists c2 r2, c2 ∈ cands g s1 s2 /\ ranks c2 s1 s2 = Some r2 /\ c2 <> c' /\ better (c', r') (c2, r2) = false) ->
  select g s1 s2 = Ambiguous.
Proof.
  intros Hc Hr Hb. unfold select. assert (Hin : (c, r) ∈ viables g s1 s2) by (by apply elem_of_viables).
  destruct (viables g s1 s2) as [|v l] eqn:Hl; [by apply elem_of_nil in Hin|]. rewrite <- Hl in *.
  destruct (List.find (best (viables g s1 s2)) (viables g s1 s2)) as [y|] eqn:Hf; [|done].
  apply find_some in Hf as [Hy Hby]. apply elem_of_list_In in Hy. destruct y as [c' r']. apply elem_of_viables in Hy as [Hc' Hr'].
  destruct (Hb c' r' Hc' Hr') as (c2 & r2 & Hc2 & Hr2 & Hne & Hnb).
  destruct (proj1 (best_spec _ _) Hby (c2, r2)) as [He|He]; [by apply elem_of_viables|done|congruence].
Qed.

Definition flipped (g : gen) (t : cty) (a : nat) : cand :=
  match g with Cxx20 => mkCand FIV t a true | Cxx14 => mkCand FVI t a false end.

Ltac inv_cand Hc' Hr' :=
  apply elem_of_cands in Hc' as (_ & ?Hf & ?Hrev);
  match goal with c' : cand |- _ => destruct c' as [[] ? ? []] end;
  cbn in Hr'; unfold ranks in Hr'; cbn in Hr'; repeat (case_decide; simplify_eq/=);
  try (feed specialize Hrev; [done|]); subst; try (exfalso; set_solver).

Lemma select_ii g t a u b : select g (CInd t a) (CInd u b) = Chosen (mkCand FII t a false).
Proof.
  apply (select_best g _ _ _ (false, false)).
  - apply elem_of_cands. cbn. split; [set_solver|]. split; [destruct g; set_solver|done].
  - unfold ranks. cbn. by rewrite decide_True.
  - intros c' r' Hc' Hr'. inv_cand Hc' Hr'; first [by left|by right].
Qed.
Lemma select_iv g t a j : select g (CInd t a) (CVal j) = Chosen (mkCand FIV t a false).
Proof.
  apply (select_best g _ _ _ (false, false)).
  - apply elem_of_cands. cbn. split; [set_solver|]. split; [destruct g; set_solver|done].
  - unfold ranks. cbn. by rewrite decide_True.
  - intros c' r' Hc' Hr'. inv_cand Hc' Hr'; first [by left|by right].
Qed.
Lemma select_vi g t a j : select g (CVal j) (CInd t a) = Chosen (flipped g t a).
Proof.
  apply (select_best g _ _ _ (false, false)).
  - apply elem_of_cands. destruct g; cbn; (split; [set_solver|]); (split; [set_solver|done]).
  - destruct g; unfold ranks; cbn; by rewrite decide_True.
  - intros c' r' Hc' Hr'. destruct g; inv_cand Hc' Hr'; first [by left|by right].
Qed.
Lemma select_vv g i j : select g (CVal i) (CVal j) = NoMatch.
Proof. done. Qed.
Lemma select_dv g d t a j : select g (CDer d t a) (CVal j) = Chosen (mkCand FIV t a false).
Proof.
  apply (select_best g _ _ _ (true, false)).
  - apply elem_of_cands. cbn. split; [set_solver|]. split; [destruct g; set_solver|done].
  - unfold ranks. cbn. by rewrite decide_True.
  - intros c' r' Hc' Hr'. inv_cand Hc' Hr'; first [by left|by right].
Qed.
Lemma select_vd g d t a j : select g (CVal j) (CDer d t a) = Chosen (flipped g t a).
Proof.
  apply (select_best g _ _ _ (false, true)).
  - apply elem_of_cands. destruct g; cbn; (split; [set_solver|]); (split; [set_solver|done]).
  - destruct g; unfold ranks; cbn; by rewrite decide_True.
  - intros c' r' Hc' Hr'. destruct g; inv_cand Hc' Hr'; first [by left|by right].
Qed.
(** A derived class is not taken for a wrapper on the right, nor on the left. *)
Lemma select_id g t a d u b : select g (CInd t a) (CDer d u b) = Chosen (mkCand FIV t a false).
Proof.
  apply (select_best g _ _ _ (false, false)).
  - apply elem_of_cands. cbn. split; [set_solver|]. split; [destruct g; set_solver|done].
  - unfold ranks. cbn. by rewrite decide_True.
  - intros c' r' Hc' Hr'. inv_cand Hc' Hr'; first [by left|by right].
Qed.
Lemma select_di g d t a u b : select g (CDer d t a) (CInd u b) = Chosen (flipped g u b).
Proof.
  apply (select_best g _ _ _ (false, false)).
  - apply elem_of_cands. destruct g; cbn; (split; [set_solver|]); (split; [set_solver|done]).
  - destruct g; unfold ranks; cbn; by rewrite decide_True.
  - intros c' r' Hc' Hr'. destruct g; inv_cand Hc' Hr'; first [by left|by right].
Qed.
Lemma select_dd g d t a e u b : select g (CDer d t a) (CDer e u b) = Ambiguous.
Proof.
  assert (H1 : mkCand FIV t a false ∈ cands g (CDer d t a) (CDer e u b)).
  { apply elem_of_cands. cbn. split; [set_solver|]. split; [destruct g; set_solver|done]. }
  assert (R1 : ranks (mkCand FIV t a false) (CDer d t a) (CDer e u b) = Some (true, false)).
  { unfold ranks. cbn. by rewrite decide_True. }
  assert (H2 : flipped g u b ∈ cands g (CDer d t a) (CDer e u b)).
  { apply elem_of_cands. destruct g; cbn; (split; [set_solver|]); (split; [set_solver|done]). }
  assert (R2 : ranks (flipped g u b) (CDer d t a) (CDer e u b) = Some (false, true)).
  { destruct g; unfold ranks; cbn; by rewrite decide_True. }
  apply (select_ambiguous g _ _ _ _ H1 R1). intros c' r' Hc' Hr'.
  destruct (decide (c' = mkCand FIV t a false)) as [->|Hne].
  - exists (flipped g u b), (false, true). split; [done|]. split; [done|]. split; [by destruct g|]. rewrite R1 in Hr'. by injection Hr' as <-.
  - exists (mkCand FIV t a false), (true, false). split; [done|]. split; [done|]. split; [done|].
    inv_cand Hc' Hr'; done.
Qed.

(** ** Meaning *)
Definition contents {B} (x : cval B) : option (cval B) := match x with VSome y => Some y | _ => None end.

Section meaning.
Context {B : Type} (g : gen) (base : nat -> nat -> cmp B B).
Notation ops := (ops g base).
Implicit Types x y : cval B.

Lemma owned_opd x : owned x = opd (contents x).
Proof. by destruct x. Qed.

Lemma ops_ii n t a u b r x y :
  op_of (ops (S n) (CInd t a) (CInd u b)) r x y = compare g (ops n t u) (ops n u t) r (owned x) (owned y).
Proof. destruct r; cbn [ops op_of v_eq v_ne v_lt v_gt v_le v_ge]; unfold expr; by rewrite select_ii. Qed.
Lemma ops_iv n t a j r x y :
  op_of (ops (S n) (CInd t a) (CVal j)) r x y = compare_val g (ops n t (CVal j)) (ops n (CVal j) t) r (owned x) y.
Proof. destruct r; cbn [ops op_of v_eq v_ne v_lt v_gt v_le v_ge]; unfold expr; by rewrite select_iv. Qed.
Lemma ops_vi n t a j r x y :
  op_of (ops (S n) (CVal j) (CInd t a)) r x y = val_compare g (ops n t (CVal j)) (ops n (CVal j) t) r x (owned y).
Proof. destruct r; cbn [ops op_of v_eq v_ne v_lt v_gt v_le v_ge]; unfold expr; rewrite select_vi; by destruct g. Qed.
Lemma ops_id n t a d u b r x y :
  op_of (ops (S n) (CInd t a) (CDer d u b)) r x y =
  compare_val g (ops n t (CDer d u b)) (ops n (CDer d u b) t) r (owned x) y.
Proof. destruct r; cbn [ops op_of v_eq v_ne v_lt v_gt v_le v_ge]; unfold expr; by rewrite select_id. Qed.
Lemma ops_dd n d t a e u b r x y : op_of (ops (S n) (CDer d t a) (CDer e u b)) r x y = VBad.
Proof. destruct r; cbn [ops op_of v_eq v_ne v_lt v_gt v_le v_ge]; unfold expr; by rewrite select_dd. Qed.

Lemma csize_pos s : 0 < csize s.
Proof. destruct s; cbn; lia. Qed.

(** Equality *)
Lemma same_as_sym (f f' : B -> B -> res bool) : (forall b c, f b c = f' c b) -> forall x y, same_as f x y = same_as f' y x.
Proof.
  intros Hf. assert (Hv : forall b y, same_as f (VVal b) y = same_as f' y (VVal b)).
  { intros b y. induction y as [c| |y IH]; cbn; [apply Hf|done|]. rewrite <- IH. by destruct y. }
  intros x. induction x as [b| |x IH]; intros y.
  - apply Hv.
  - by destruct y.
  - destruct y as [c| |y]; cbn; [|done|apply IH]. rewrite IH. by destruct x.
Qed.
Lemma same_as_right f b y : same_as f (VVal b) (VSome y) = same_as (B := B) f (VVal b) y.
Proof. by destruct y. Qed.

Lemma eval_eq_n (Hsym : forall i j b c, v_eq (base i j) b c = v_eq (base j i) c b) n s1 s2 x y :
  csize s1 + csize s2 <= n -> plain s1 -> plain s2 -> has s1 x -> has s2 y ->
  op_of (ops n s1 s2) REq x y = same_as (v_eq (base (core s1) (core s2))) x y.
Proof.
  revert s1 s2 x y. induction n as [|n IH]; intros s1 s2 x y Hn Hp1 Hp2 Hx Hy.
  { assert (H := csize_pos s1). lia. }
  destruct s1 as [i|t a|]; [| |done]; (destruct s2 as [j|u b|]; [| |done]).
  - destruct x; try done. by destruct y.
  - rewrite ops_vi, owned_opd, val_compare_opd. destruct x as [bx| |]; try done.
    destruct y as [c| |y]; [done|by destruct g|]. cbn [contents core].
    rewrite same_as_right. cbn in Hn. destruct g.
    + apply (IH (CVal i) u (VVal bx) y); done || (cbn; lia).
    + cbn [value_rel mirror]. rewrite (same_as_sym _ (v_eq (base (core u) i))) by (intros; apply Hsym).
      apply (IH u (CVal i) y (VVal bx)); done || (cbn; lia).
  - rewrite ops_iv, owned_opd, compare_val_opd. destruct y as [c| |]; try done.
    destruct x as [bx| |x]; [done|done|]. cbn [contents core]. cbn in Hn.
    assert (G := IH t (CVal j) x (VVal c)). feed specialize G; [cbn; lia|done..|]. by destruct g.
  - rewrite ops_ii, !owned_opd, compare_opd. cbn in Hn.
    destruct x as [| |x]; [done| |]; (destruct y as [| |y]; [done| |]); try done. cbn [contents lifted].
    assert (G := IH t u x y). feed specialize G; [cbn; lia|done..|]. by destruct g.
Qed.
Lemma eval_ne_n (Hne : forall i j b c, v_ne (base i j) b c = rnot (v_eq (base i j) b c)) n s1 s2 x y :
  csize s1 + csize s2 <= n -> plain s1 -> plain s2 -> has s1 x -> has s2 y ->
  op_of (ops n s1 s2) RNe x y = rnot (op_of (ops n s1 s2) REq x y).
Proof.
  revert s1 s2 x y. induction n as [|n IH]; intros s1 s2 x y Hn Hp1 Hp2 Hx Hy.
  { assert (H := csize_pos s1). lia. }
  destruct s1 as [i|t a|]; [| |done]; (destruct s2 as [j|u b|]; [| |done]).
  - destruct x; try done. destruct y; try done. apply Hne.
  - rewrite !ops_vi, owned_opd, !val_compare_opd. destruct x as [bx| |]; try done.
    destruct y as [c| |y]; [done|by destruct g|]. cbn [contents]. cbn in Hn. destruct g; [|done].
    apply (IH (CVal i) u (VVal bx) y); done || (cbn; lia).
  - rewrite !ops_iv, owned_opd, !compare_val_opd. destruct y as [c| |]; try done.
    destruct x as [bx| |x]; [done|done|]. cbn [contents]. cbn in Hn. destruct g; [|done].
    apply (IH t (CVal j) x (VVal c)); done || (cbn; lia).
  - rewrite !ops_ii, !owned_opd, !compare_opd. cbn in Hn.
    destruct x as [| |x]; [done| |]; (destruct y as [| |y]; [done| |]); try done. cbn [contents lifted]. destruct g; [|done].
    apply (IH t u x y); done || (cbn; lia).
Qed.

(** Order *)
Section order.
Context (ord : nat -> nat -> B -> B -> ordering) (HO : ordered base ord).
Lemma order_flip i j x y : order_of (ord j i) y x = flip_ord (order_of (ord i j) x y).
Proof.
  assert (Hv : forall b y, order_of (ord j i) y (VVal b) = flip_ord (order_of (ord i j) (VVal b) y)).
  { intros b y0. induction y0 as [c| |y0 IH]; cbn; [|done|].
    - rewrite (or_flip _ _ HO). by destruct (ord i j b c).
    - rewrite IH. by destruct y0. }
  revert y. induction x as [b| |x IH]; intros y.
  - apply Hv.
  - by destruct y.
  - destruct y as [c| |y]; cbn; [|done|apply IH]. rewrite <- IH. by destruct x.
Qed.
Lemma order_total i j x y : order_of (ord i j) x y <> Unordered.
Proof.
  assert (Hv : forall b y, order_of (ord i j) (VVal b) y <> Unordered).
  { intros b y0. induction y0 as [c| |y0 IH]; cbn; [apply (or_total _ _ HO)|done|]. revert IH. by destruct y0. }
  revert y. induction x as [b| |x IH]; intros y; [apply Hv|by destruct y|]. destruct y as [c| |y]; cbn; [|done|]; apply IH.
Qed.
Lemma order_right i j b y : order_of (ord i j) (VVal b) (VSome y) = order_of (ord i j) (VVal b) y.
Proof. by destruct y. Qed.

Lemma synth_ord {V W} (C : cmp V W) (C' : cmp W V) v w o :
  (forall r, own_rel C r v w = VOk (holds r o)) -> (forall r, own_rel C' r w v = VOk (holds r (flip_ord o))) ->
  (forall f, v_tw C = Some f -> f v w = VOk o) -> o <> Unordered -> Compare20.synth_three_way C C' v w = VOk o.
Proof.
  intros H1 H2 H3 Ho. unfold Compare20.synth_three_way. destruct (v_tw C) as [f|]; [by apply H3|].
  assert (L1 := H1 RLt). assert (L2 := H2 RLt). cbn in L1, L2. rewrite L1. cbn. destruct o; cbn; try done; rewrite L2; done.
Qed.
Lemma value_rel_ord {V W} (C : cmp V W) (C' : cmp W V) r v w o :
  (forall r, own_rel C r v w = VOk (holds r o)) -> (forall r, own_rel C' r w v = VOk (holds r (flip_ord o))) ->
  (forall f, v_tw C = Some f -> f v w = VOk o) -> o <> Unordered ->
  value_rel g C C' r v w = VOk (holds r o).
Proof.
  intros H1 H2 H3 Ho. destruct g; [apply H1|]. assert (Hs := synth_ord C C' v w o H1 H2 H3 Ho).
  destruct r; cbn [value_rel]; try (rewrite Hs; by destruct o).
  - apply (H1 REq).
  - assert (L := H1 REq). cbn in L. rewrite L. by destruct o.
Qed.

Lemma eval_ord_n n s1 s2 x y :
  csize s1 + csize s2 <= n -> plain s1 -> plain s2 -> has s1 x -> has s2 y ->
  let o := order_of (ord (core s1) (core s2)) x y in
  (forall r, op_of (ops n s1 s2) r x y = VOk (holds r o)) /\ (forall f, v_tw (ops n s1 s2) = Some f -> f x y = VOk o).
Proof.
  revert s1 s2 x y. induction n as [|n IH]; intros s1 s2 x y Hn Hp1 Hp2 Hx Hy.
  { assert (H := csize_pos s1). lia. }
  assert (Hval : forall t u v w r, csize t + csize u <= n -> plain t -> plain u -> has t v -> has u w ->
    value_rel g (ops n t u) (ops n u t) r v w = VOk (holds r (order_of (ord (core t) (core u)) v w))).
  { intros t u v w r Hs Pt Pu Hv Hw. apply value_rel_ord.
    - intros r'. apply (IH t u v w); done.
    - intros r'. rewrite <- order_flip. apply (IH u t w v); done || lia.
    - apply (IH t u v w); done.
    - apply order_total. }
  destruct s1 as [i|t a|]; [| |done]; (destruct s2 as [j|u b|]; [| |done]); cbn in Hn.
  - destruct x as [bx| |]; try done. destruct y as [by_| |]; try done. cbn [core order_of]. split.
    + intros r. destruct (or_ops _ _ HO i j bx by_) as (? & ? & ? & ? & ? & ?). by destruct r.
    + intros f. cbn. destruct (v_tw (base i j)) as [f'|] eqn:Hf; [|done]. intros [= <-]. by apply (or_tw _ _ HO).
  - destruct x as [bx| |]; try done. split.
    + intros r. rewrite ops_vi, owned_opd, val_compare_opd.
      destruct y as [c| |y]; [done|by destruct g, r|]. cbn [contents core]. rewrite order_right. destruct g.
      * apply (IH (CVal i) u (VVal bx) y); done || (cbn; lia).
      * rewrite Hval by (done || (cbn; lia)). rewrite order_flip. cbn [core].
        assert (T := order_total i (core u) (VVal bx) y).
        destruct (order_of (ord i (core u)) (VVal bx) y); by destruct r.
    + done.
  - destruct y as [c| |]; try done. split.
    + intros r. rewrite ops_iv, owned_opd, compare_val_opd. destruct x as [bx| |x]; [done|by destruct r|]. cbn [contents core order_of].
      rewrite Hval by (done || (cbn; lia)). done.
    + intros f. cbn. by destruct g; [|rewrite decide_False by done].
  - assert (Hii : forall r, lifted r (value_rel g (ops n t u) (ops n u t) r) (contents x) (contents y) =
        VOk (holds r (order_of (ord (core t) (core u)) x y))).
    { intros r. destruct x as [| |x]; [done| |]; (destruct y as [| |y]; [done| |]); try (by destruct r). cbn [contents lifted order_of].
      apply Hval; done || (cbn; lia). }
    split.
    + intros r. rewrite ops_ii, !owned_opd, compare_opd. apply Hii.
    + intros f. cbn. destruct g eqn:Hg; [done|]. case_decide as Heq; [|done]. injection Heq as <- <-. intros [= <-].
      unfold three_way. rewrite !owned_opd, tw_opd.
      destruct x as [| |x]; [done| |]; (destruct y as [| |y]; [done| |]); try done. cbn [contents order_of].
      destruct (IH t t x y) as [G1 G2]; [cbn; lia|done..|]. destruct (IH t t y x) as [G3 _]; [cbn; lia|done..|].
      apply synth_ord; [exact G1| |exact G2|apply order_total]. intros r. rewrite <- order_flip. apply G3.
Qed.
End order.
End meaning.

(** ** Laws *)
(** How often a wrapper is wrapped before it is valueless, or the value in the middle. *)
Fixpoint peel {B} (x : cval B) : nat + B :=
  match x with VVal b => inr b | VNone => inl 0 | VSome y => match peel y with inl k => inl (S k) | inr b => inr b end end.
Lemma same_as_peel {B} f (x y : cval B) :
  same_as f x y = match peel x, peel y with inr b, inr c => f b c | inl j, inl k => VOk (Nat.eqb j k) | _, _ => VOk false end.
Proof.
  assert (Hv : forall b y, same_as f (VVal b) y = match peel y with inr c => f b c | _ => VOk false end).
  { intros b y0. induction y0 as [c| |y0 IH]; [done|done|]. rewrite same_as_right, IH. cbn. by destruct (peel y0). }
  revert y. induction x as [b| |x IH]; intros y.
  - rewrite Hv. cbn. by destruct (peel y).
  - destruct y as [c| |y]; [done|done|]. cbn. by destruct (peel y).
  - destruct y as [c| |y]; cbn [same_as peel].
    + rewrite IH. cbn. by destruct (peel x).
    + by destruct (peel x).
    + rewrite IH. by destruct (peel x), (peel y).
Qed.
