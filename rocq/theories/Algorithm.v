(** * Algorithms over ranges of wrappers.

    Algorithms that compare, exchange and move the elements of a range ([std::sort],
    [std::stable_sort], [std::rotate], [std::partition], heaps, ...) are client code: decision
    trees over the operations of the four headers.  Of /repo nothing is modelled in this file.
    Elements and temporaries are named by numbers, as the variables of ContractClient.v. *)

From stdpp Require Import base gmap list sorting.
From Verif Require Import Lang Common Client Spec Rep Headers Hist Tree Contract ContractClient Compare ContractCompare.

Inductive alg :=
| AEnd
| ARel (r : rel) (x y : nat) (k : bool -> alg)   (* if (x r y) ... else ... *)
| ASwap (x y : nat) (k : alg)                    (* swap(x, y) *)
| ATemp (x y : nat) (k : alg)                    (* T x = std::move(y) *)
| AMove (x y : nat) (k : alg)                    (* x = std::move(y) *)
| ADrop (x : nat) (k : alg).                     (* the end of x's lifetime *)

(** The code. *)
Section prog.
Context {E : Env} (T : TP E) (C : Cmps E) (hs : nat -> header).
Local Open Scope prog_scope.
Notation impl_of := (fun x => hdr_impl (hs x) T).
Fixpoint aprog (A : alg) : prog E unit :=
  match A with
  | AEnd => Ret tt
  | ARel r x y k => b <- w_rel (impl_of x) C (gen_of (hs x)) r (WVar x) (WVar y) ; aprog (k b)
  | ASwap x y k => i_swap (impl_of x) (WVar x) (WVar y) ;; aprog k
  | ATemp x y k => i_move (impl_of x) (WVar x) (WVar y) ;; aprog k
  | AMove x y k => i_move_assign (impl_of x) (WVar x) (WVar y) ;; aprog k
  | ADrop x k => i_dtor (impl_of x) (WVar x) ;; aprog k
  end.
End prog.

(** ** Specification

    The same algorithm over variables that hold values or, moved from, nothing. *)
Section spec.
Context {V : Type} (R : rel -> nat -> option V -> option V -> bool + exn -> Prop).
Notation vals := (gmap nat (option V)).
Implicit Types v : vals.

(** What it may do, with [res] the end or an exception of a comparison of [x] with another
    ([R r x]). *)
Fixpoint aexec (A : alg) v (res : unit + exn) v' : Prop :=
  match A with
  | AEnd => res = inl tt /\ v' = v
  | ARel r x y k => exists ux uy b, v !! x = Some ux /\ v !! y = Some uy /\ R r x ux uy b /\
      match b with inl b => aexec (k b) v res v' | inr e => res = inr e /\ v' = v end
  | ASwap x y k => exists ux uy, v !! x = Some ux /\ v !! y = Some uy /\ aexec k (<[x := uy]> (<[y := ux]> v)) res v'
  | ATemp x y k | AMove x y k => exists uy, v !! y = Some uy /\ aexec k (<[x := uy]> (<[y := None]> v)) res v'
  | ADrop x k => aexec k (delete x v) res v'
  end.

(** It only uses elements that exist; if [keep], it moves only onto what has been moved from, or an
    element onto itself, and lets nothing die that has a value. *)
Context (hs : nat -> header) (keep : bool).
Fixpoint asafe (A : alg) v : Prop :=
  match A with
  | AEnd => True
  | ARel r x y k => header_cls (hs x) = Ind /\ hs x = hs y /\ is_Some (v !! y) /\ is_Some (v !! x) /\
      forall ux uy b, v !! x = Some ux -> v !! y = Some uy -> R r x ux uy (inl b) -> asafe (k b) v
  | ASwap x y k => hs x = hs y /\ exists ux uy, v !! x = Some ux /\ v !! y = Some uy /\ asafe k (<[x := uy]> (<[y := ux]> v))
  | ATemp x y k => hs x = hs y /\ v !! x = None /\ exists uy, v !! y = Some uy /\ asafe k (<[x := uy]> (<[y := None]> v))
  | AMove x y k => hs x = hs y /\ (exists ux, v !! x = Some ux /\ (keep = true -> x = y \/ ux = None)) /\
      exists uy, v !! y = Some uy /\ asafe k (<[x := uy]> (<[y := None]> v))
  | ADrop x k => (exists ux, v !! x = Some ux /\ (keep = true -> ux = None)) /\ asafe k (delete x v)
  end.
End spec.

(** The values in the variables, in some order. *)
Definition contents {V : Type} (v : gmap nat (option V)) : list V := omap id (map_to_list v).*2.

(** The values of wrappers, and how wrappers compare. *)
Section wrappers.
Context {E : Env} (K : Cls E) (S : CmpSpec (c_val K)) (hs : nat -> header).
Definition vals_of (m : gmap nat (option (ty * c_val K) * eA E)) : gmap nat (option (ty * c_val K)) := fst <$> m.
Definition cmp_vals (r : rel) (x : nat) (u w : option (ty * c_val K)) (b : bool + exn) : Prop :=
  w_related S (gen_of (hs x)) r (snd <$> u) (snd <$> w) b.
(** All allocators are equal. *)
Definition one_alloc (m : gmap nat (option (ty * c_val K) * eA E)) : Prop :=
  forall x y kx ky, m !! x = Some kx -> m !! y = Some ky -> a_eqb E kx.2 ky.2 = true.
End wrappers.

(** ** Removing duplicates

    As [std::unique] and the following erasure: [w] is the last element kept, [l] the rest of the
    range, [f] the elements that are free to be written after [w]; what is left at the end dies. *)
Fixpoint drop_all (l : list nat) (k : alg) : alg := match l with [] => k | x :: l => ADrop x (drop_all l k) end.
Fixpoint unique_at (w : nat) (f l : list nat) (k : alg) : alg :=
  match l with
  | [] => drop_all f k
  | y :: l => ARel REq w y (fun b =>
      if b then unique_at w (f ++ [y]) l k
      else match f with
           | [] => unique_at y [] l k
           | z :: f => AMove z y (unique_at z (f ++ [y]) l k)
           end)
  end.
Definition unique (l : list nat) (k : alg) : alg := match l with [] => k | x :: l => unique_at x [] l k end.

(** The same on a list: of each run of equal values the first. *)
Fixpoint uniq_after {V : Type} (eq : V -> V -> bool) (u : V) (l : list V) : list V :=
  match l with [] => [] | w :: l => if eq u w then uniq_after eq u l else w :: uniq_after eq w l end.
Definition uniq {V : Type} (eq : V -> V -> bool) (l : list V) : list V :=
  match l with [] => [] | u :: l => u :: uniq_after eq u l end.

(** ** Insertion sort

    As in the standard libraries: the element is moved to a temporary [t], smaller ones are moved
    down, and it is moved to its place.  [insert h t l k]: [h] is moved from, [l] is sorted. *)
Fixpoint insert_at (h t : nat) (l : list nat) (k : alg) : alg :=
  match l with
  | [] => AMove h t (ADrop t k)
  | y :: l => ARel RLt y t (fun b => if b then AMove h y (insert_at y t l k) else AMove h t (ADrop t k))
  end.
Fixpoint insertion_sort (t : nat) (l : list nat) (k : alg) : alg :=
  match l with
  | [] => k
  | x :: l => insertion_sort t l (ATemp t x (insert_at x t l k))
  end.
