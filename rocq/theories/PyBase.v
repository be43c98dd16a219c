(** Python fragments used by the model: exceptions as values, dictionaries,
    indexing and slicing of lists with (possibly negative) integers.

    Nothing here models a particular line of /repo; it is the Python semantics
    the other model files are written in. *)
From Coq Require Export List Arith ZArith Lia Bool String Ascii.
Export ListNotations.

(** Exceptions that the modelled code can raise.  [BackendError] stands for the
    error type of the numerical backend (TensorFlow raises
    [InvalidArgumentError], others raise [ValueError]); we do not distinguish
    further. *)
Inductive exn :=
| ValueError | TypeError | KeyError | IndexError | AttributeError
| AssertionError | UnboundLocalError | ZeroDivisionError | BackendError.

Inductive result (A : Type) :=
| Ok (a : A)
| Err (e : exn).
Arguments Ok {A} a.
Arguments Err {A} e.

Definition bind {A B} (x : result A) (k : A -> result B) : result B :=
  match x with Ok a => k a | Err e => Err e end.

Declare Scope py_scope.
Delimit Scope py_scope with py.
Notation "x <- e ;; k" := (bind e (fun x => k))
  (at level 61, e at next level, right associativity) : py_scope.
Notation "'guard' b 'else' e ;; k" := (if b then k else Err e)
  (at level 61, b at next level, e at next level, right associativity) : py_scope.
Open Scope py_scope.

Definition is_ok {A} (x : result A) : bool :=
  match x with Ok _ => true | Err _ => false end.

(** [[f x for x in l]] where [f] may raise. *)
Fixpoint mapM {A B} (f : A -> result B) (l : list A) : result (list B) :=
  match l with
  | [] => Ok []
  | x :: l' => y <- f x ;; ys <- mapM f l' ;; Ok (y :: ys)
  end.

(** [d[k]] on an association list (first binding wins; the dictionaries of the
    code have distinct keys). *)
Fixpoint dict_get {B} (d : list (string * B)) (k : string) : result B :=
  match d with
  | [] => Err KeyError
  | (k', v) :: d' => if String.eqb k k' then Ok v else dict_get d' k
  end.

(** [{e: v for e, v in zip(es, vs)}[k]] with natural number keys; a later
    binding of the same key overwrites an earlier one. *)
Fixpoint zip_get (es vs : list nat) (k : nat) : result nat :=
  match es, vs with
  | e :: es', v :: vs' =>
      match zip_get es' vs' k with
      | Ok w => Ok w
      | Err _ => if Nat.eqb e k then Ok v else Err KeyError
      end
  | _, _ => Err KeyError
  end.

(** Normalisation of a Python index [a] into a list of length [r]. *)
Definition norm_axis (r : nat) (a : Z) : result nat :=
  let r' := Z.of_nat r in
  if ((0 <=? a) && (a <? r'))%Z then Ok (Z.to_nat a)
  else if ((- r' <=? a) && (a <? 0))%Z then Ok (Z.to_nat (a + r'))
  else Err IndexError.

(** [l[a]] *)
Definition py_nth {A} (l : list A) (a : Z) : result A :=
  k <- norm_axis (List.length l) a ;;
  match nth_error l k with Some x => Ok x | None => Err IndexError end.

(** Position at which the slices [l[:a]] and [l[a:]] are cut. *)
Definition slice_pos (r : nat) (a : Z) : nat :=
  if (a <? 0)%Z then Z.to_nat (Z.max 0 (a + Z.of_nat r)) else Nat.min r (Z.to_nat a).

(** [l[:a]] and [l[a:]] *)
Definition py_upto {A} (l : list A) (a : Z) : list A := firstn (slice_pos (List.length l) a) l.
Definition py_from {A} (l : list A) (a : Z) : list A := skipn (slice_pos (List.length l) a) l.

(** Functional list updates. *)
Definition insert_at {A} (k : nat) (v : A) (l : list A) : list A := firstn k l ++ v :: skipn k l.
Definition remove_at {A} (k : nat) (l : list A) : list A := firstn k l ++ skipn (S k) l.
Fixpoint upd {A} (k : nat) (v : A) (l : list A) : list A :=
  match l, k with
  | [], _ => []
  | _ :: l', 0 => v :: l'
  | x :: l', S k' => x :: upd k' v l'
  end.

(** [l[a] = v] *)
Definition py_set {A} (l : list A) (a : Z) (v : A) : result (list A) :=
  k <- norm_axis (List.length l) a ;; Ok (upd k v l).

(** [l.pop(a)] (the remaining list) *)
Definition py_pop {A} (l : list A) (a : Z) : result (list A) :=
  k <- norm_axis (List.length l) a ;; Ok (remove_at k l).

(** first position of [a] in [l] ([length l] if absent) *)
Fixpoint index_of (a : nat) (l : list nat) : nat :=
  match l with
  | [] => 0
  | x :: l' => if Nat.eqb x a then 0 else S (index_of a l')
  end.

Definition mem (a : nat) (l : list nat) : bool := existsb (Nat.eqb a) l.
