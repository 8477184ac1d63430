(** * The C++14 headers against the C++20 headers. *)

From stdpp Require Import base gmap list.
From Verif Require Import Lang Common Client Spec Rep Effect RunLemmas RunOps RunInd RunPoly.
From Verif Require Import Indirect20 Indirect14 Polymorphic20 Polymorphic14.

(** The two [indirect] classes are the same programs, for any value type. *)
Lemma indirect14_same (E : Env) (T : TP E) : indirect14 T = indirect20 T.
Proof. reflexivity. Qed.

Section poly14.
Context {E : Env} (T : TP E).
Notation A := (eA E).
Notation V := (eV E).
Implicit Types s : store E.

(** Side conditions under which an operation of the C++14 [polymorphic] behaves like the
    one of the C++20 header, in terms of the abstract state: the
    initializer_list constructor is only asked for a T; an engaged object is moved with an explicit
    allocator under POCCA only if the allocators compare equal; and the allocator of a
    moved-from object compares equal to itself. *)
Definition ok14 (o : op E) (σ : spec E) : bool :=
  match o with
  | OIlist _ t _ | OIlistA _ _ t _ => bool_decide (t = tT E)
  | OMove x y =>
      match sv σ !! y with
      | Some (Some _, ay) => a_eqb E ay ay
      | _ => true
      end
  | OMoveA x a y =>
      match sv σ !! y with
      | Some (Some _, ay) => negb (pocca E) || a_eqb E a ay
      | _ => true
      end
  | _ => true
  end.

(** Every other operation is literally the same program. *)
Definition changed14 (o : op E) : bool :=
  match o with
  | OIlist _ _ _ | OIlistA _ _ _ _ | OMove _ _ | OMoveA _ _ _ => true
  | _ => false
  end.

Lemma poly14_unchanged (o : op E) :
  changed14 o = false -> interp (polymorphic14 T) o = interp (polymorphic20 T) o.
Proof. by destruct o. Qed.

Lemma poly14_ilist x t g :
  t = tT E -> interp (polymorphic14 T) (OIlist x t g) = interp (polymorphic20 T) (OIlist x t g).
Proof. by intros ->. Qed.
Lemma poly14_ilist_a x a t g :
  t = tT E -> interp (polymorphic14 T) (OIlistA x a t g) = interp (polymorphic20 T) (OIlistA x a t g).
Proof. by intros ->. Qed.

(** Taking over the pointer, in either order of the two writes. *)
Lemma take_run s w y h cw cy :
  w <> y -> wraps s !! w = Some cw -> wraps s !! y = Some cy -> w_p cy <> PIndet ->
  run (catch (Polymorphic14.take w y) h) s =
    ORet tt (set_wraps (<[y := mkW PNull (w_a cy)]> (<[w := mkW (w_p cy) (w_a cw)]> (wraps s))) s) /\
  run (catch (Polymorphic20.exchange_null w y) h) s =
    ORet tt (set_wraps (<[y := mkW PNull (w_a cy)]> (<[w := mkW (w_p cy) (w_a cw)]> (wraps s))) s).
Proof.
  intros Hne Hw Hy Hp. destruct s as [B W X O tr]. cbn [wraps] in *.
  unfold Polymorphic14.take, Polymorphic20.exchange_null. ex. rewrite Hy.
  destruct (w_p cy) as [| |l]; [done| |]; ex; rewrite Hw, Hy; ex;
  rewrite !lookup_insert_ne by done; rewrite Hw, Hy; ex;
  rewrite (insert_commute _ w y) by done; done.
Qed.

Lemma move_a_same s ω w a y :
  AllocReq E -> Rep Poly (blocks s) (wraps s) ω -> ω !! w = None -> is_Some (ω !! y) ->
  ok14 (OMoveA w a y) (abs_spec ω (exts s)) = true ->
  run (Polymorphic14.ctor_move_a T w a y) s = run (Polymorphic20.ctor_move_a T w a y) s.
Proof.
  intros HA HR Hw [[oy ay] Hy] Hok.
  pose proof (rep_lookup_none _ _ _ _ _ HR Hw) as HW.
  pose proof (rep_lookup _ _ _ _ _ _ _ HR Hy) as HWy.
  assert (Hwy : w <> y) by congruence.
  simpl in Hok. rewrite lookup_absv, Hy in Hok. simpl in Hok.
  destruct s as [B W X O tr]. cbn [blocks wraps] in *.
  unfold Polymorphic14.ctor_move_a, Polymorphic20.ctor_move_a. rewrite !run_noexcept.
  unfold ctor. ex. rewrite HW. ex.
  set (s1 := mkS B (<[w := mkW PIndet a]> W) X O tr).
  assert (Hw1 : wraps s1 !! w = Some (mkW PIndet a)) by apply lookup_insert.
  assert (Hy1 : wraps s1 !! y = Some (to_wrapper (oy, ay))).
  { unfold s1. cbn [wraps]. by rewrite lookup_insert_ne. }
  assert (Hp1 : w_p (to_wrapper (oy, ay)) <> PIndet) by (by destruct oy as [[[]]|]).
  pose proof (fun h => proj1 (take_run s1 w y h _ _ Hwy Hw1 Hy1 Hp1)) as Ht.
  pose proof (fun h => proj2 (take_run s1 w y h _ _ Hwy Hw1 Hy1 Hp1)) as He.
  destruct (always_equal E) eqn:Hae.
  - rewrite He. destruct (pocca E); [by rewrite Ht|].
    ex. rewrite Hw1. ex. rewrite Hy1. ex. unfold to_wrapper at 1; ex.
    rewrite (ar_ae _ HA Hae), Ht. done.
  - destruct (pocca E) eqn:Hpc.
    + rewrite Ht. ex. rewrite Hw1. ex. rewrite Hy1. ex. unfold to_wrapper at 3; ex.
      destruct (a_eqb E a ay) eqn:Heq; [by rewrite He|].
      destruct oy as [[[l t] v]|]; simpl in Hok; [done|].
      unfold Polymorphic20.valueless_after_move. ex. rewrite Hy1.
      unfold to_wrapper; ex. rewrite Hw1. ex.
      f_equal. unfold s1. cbn [wraps blocks exts orc trc]. rewrite !insert_insert. f_equal.
      rewrite insert_commute by done. f_equal.
      apply insert_id. done.
    + ex. rewrite Hw1. ex. rewrite Hy1. ex. unfold to_wrapper; ex.
      destruct (a_eqb E a ay); [by rewrite Ht, He|]. done.
Qed.

End poly14.

Section poly14_effect.
Context {E : Env} (HA : AllocReq E).
Notation T := (flatTP E).
Notation k := Poly.
Implicit Types s : store E.

(** A move construction between equal allocators is a transfer: it returns. *)
Lemma move_same s ω w y oy ay :
  Rep Poly (blocks s) (wraps s) ω -> ω !! w = None -> ω !! y = Some (oy, ay) ->
  (is_Some oy -> a_eqb E ay ay = true) ->
  run (Polymorphic14.ctor_move T w y) s = run (Polymorphic20.ctor_move T w y) s.
Proof.
  intros HR Hw Hy Heq.
  pose proof (rep_lookup _ _ _ _ _ _ _ HR Hy) as HWy.
  unfold Polymorphic14.ctor_move, Polymorphic20.ctor_move. rewrite !run_noexcept. ex.
  rewrite HWy. ex. unfold to_wrapper at 1 2; ex.
  assert (Hsame : run (Polymorphic14.ctor_move_a T w ay y) s =
                  run (Polymorphic20.ctor_move_a T w ay y) s).
  { apply (move_a_same T s ω); [done|done|done|by eexists|]. simpl. rewrite lookup_absv, Hy. simpl.
    destruct oy; [|done]. simpl. rewrite Heq by eauto. by destruct (pocca E). }
  rewrite Hsame.
  assert (Hret : exists s', run (Polymorphic20.ctor_move_a T w ay y) s = ORet tt s').
  { destruct s as [B W X O tr].
    destruct (RunPoly.ctor_move_a_eff HA B W X O tr ω w ay y HR Hw) as (r & Hr & Hm); [by eexists|].
    unfold vmove_construct in Hr. rewrite Hy in Hr.
    assert (Hq : exists ω' evs, r = VRet ObsUnit ω' X evs).
    { destruct oy as [oy|].
      - rewrite Heq in Hr by eauto. rewrite orb_true_r in Hr. rewrite Hr. eauto.
      - rewrite Hr. eauto. }
    destruct Hq as (ω' & evs & ->). destruct Hm as (s' & Hrun & _).
    unfold quiet in Hrun. rewrite run_bind in Hrun.
    destruct (run (Polymorphic20.ctor_move_a T w ay y) _) as [[] s''| | |]; simplify_eq/=. eauto. }
  destruct Hret as [s' ->]. done.
Qed.

Theorem poly14_same s ω (o : op E) cc ca :
  Rep k (blocks s) (wraps s) ω -> pre (mkCfg Poly cc ca) o (abs_spec ω (exts s)) = true ->
  ok14 o (abs_spec ω (exts s)) = true ->
  run (interp (polymorphic14 T) o) s = run (interp (polymorphic20 T) o) s.
Proof.
  intros HR Hpre Hok. destruct (changed14 o) eqn:Hch.
  2:{ by rewrite poly14_unchanged. }
  destruct o; try done.
  - simpl in Hok. apply bool_decide_eq_true in Hok. by rewrite poly14_ilist.
  - simpl in Hok. apply bool_decide_eq_true in Hok. by rewrite poly14_ilist_a.
  - simpl in Hpre. apply andb_true_iff in Hpre as [Hx Hy]. apply pre_dead in Hx.
    apply pre_live in Hy as (oy & ay & Hy).
    unfold interp, quiet. rewrite !run_bind. cbn [i_move polymorphic14 polymorphic20].
    erewrite move_same; try done.
    intros Hs. simpl in Hok. rewrite lookup_absv, Hy in Hok. by destruct oy; [|by destruct Hs].
  - simpl in Hpre. apply andb_true_iff in Hpre as [Hx Hy]. apply pre_dead in Hx.
    apply pre_live in Hy as (oy & ay & Hy).
    unfold interp, quiet. rewrite !run_bind. cbn [i_move_a polymorphic14 polymorphic20].
    rewrite (move_a_same T s ω); [done|done|done|done|by eexists|done].
Qed.

Theorem poly14_effect s ω (o : op E) cc ca :
  Rep k (blocks s) (wraps s) ω -> pre (mkCfg Poly cc ca) o (abs_spec ω (exts s)) = true ->
  ok14 o (abs_spec ω (exts s)) = true ->
  effect k (veff k NonConstL NonConstL o ω (exts s)) (interp (polymorphic14 T) o) s.
Proof.
  intros HR Hpre Hok. destruct (poly20_effect HA s ω o cc ca HR Hpre) as (r & Hr & Hm).
  exists r. split; [done|]. by erewrite poly14_same.
Qed.

End poly14_effect.
