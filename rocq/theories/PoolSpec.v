(** Vocabulary for the theorems about pooling layers (compare EquivSpec). *)
From Coq Require Import Permutation.
From Verif Require Export EquivSpec.
Local Open Scope string_scope.
Local Open Scope list_scope.

(** The value of a pooling function does not depend on the order of its arguments.
    The theorems are about pooling functions with this property (exact maximum and
    mean have it). *)
Definition order_irrelevant {A} (f : list A -> A) : Prop := forall l l', Permutation l l' -> f l = f l'.

(** What a layer of type [t] does with its values: "max" takes the maximum, "average" the mean. *)
Definition max_or_mean {A} {PA : Pool A} (t : string) : list A -> A := if String.eqb t "max" then pool_max else pool_mean.

(** A pooling layer for a group of the library, in the channels_last format. *)
Definition pooling_for (name : string) (G : group) (a : pool_args) : Prop :=
  dict_get group_dict name = Ok G /\ (pa_group a = ByName name \/ pa_group a = Object G) /\
  pa_data_format a = "channels_last".

(** The pooling layer ([t] is "max" or "average") constructed from the arguments [a]
    and built for an input shape. *)
Definition pooling_built (d : nat) (t : string) (a : pool_args) (input : sshape) (L : pool_layer) : Prop :=
  exists L0, pool_init d t a = Ok L0 /\ pool_build L0 input = Ok L.

(** Pool size and strides per axis; Keras uses the pool size for strides that are
    not given. *)
Definition pool_sizes (d : nat) (a : pool_args) (k s : list nat) : Prop :=
  standardize_tuple d (pa_pool_size a) = Ok k /\
  standardize_tuple d (match pa_strides a with Some s => s | None => pa_pool_size a end) = Ok s.

(** The padding option in upper case. *)
Definition pool_option (a : pool_args) (o : string) : Prop :=
  exists p, (match pa_padding a with Some q => q | None => Some "valid_equiv" end) = Some p /\ upper p = o.

(** The padding layer that the pooling layer makes for itself. *)
Definition padding_of_pooling (a : pool_args) (d : nat) (bs : option nat) (m : list nat) (C : nat) (P : padding_layer) : Prop :=
  exists P0,
    padding_init (pa_pool_size a) d (match pa_strides a with Some v => v | None => One 1 end)
      (match pa_padding a with Some q => q | None => Some "valid_equiv" end) (pa_allow a) "channels_last" false = Ok P0 /\
    padding_build P0 (bs :: map Some m ++ [Some C]) = Ok P.

(** Rows that Keras' 'same' pooling adds to an axis of size [n] in total, for pool
    size [k] and stride [s]: what the last window lacks, or 0. *)
Definition rows_added (n k s : nat) : nat := (n + s - 1) / s * s + k - (s + n).

(** Integers: the maximum, and the mean rounded down. *)
#[global] Instance Pool_Z : Pool Z :=
  {| pool_max := fun l => match l with [] => 0%Z | v :: r => fold_left Z.max r v end;
     pool_mean := fun l => (fold_right Z.add 0 l / Z.of_nat (List.length l))%Z |}.

Lemma max_in v r : (fold_left Z.max r v = v \/ In (fold_left Z.max r v) r) /\ (v <= fold_left Z.max r v)%Z /\
  forall w, In w r -> (w <= fold_left Z.max r v)%Z.
Proof.
  revert v. induction r as [|w r IH]; intros v; cbn [fold_left].
  - split; [left; reflexivity|]. split; [lia|]. intros w [].
  - destruct (IH (Z.max v w)) as [M [U V]]. split; [|split].
    + destruct M as [M|M]; [|right; right; exact M]. rewrite M. destruct (Z.max_spec v w) as [[_ ->]|[_ ->]]; [right; left; reflexivity|left; reflexivity].
    + lia.
    + intros w' [<-|I]; [lia|apply V; exact I].
Qed.

Lemma pool_Z_order_irrelevant t : order_irrelevant (pool_fun (A := Z) t).
Proof.
  intros l l' P. unfold pool_fun. destruct (String.eqb t "max"); cbn [pool_max pool_mean Pool_Z].
  - destruct l as [|v r]; [apply Permutation_nil in P; subst l'; reflexivity|].
    destruct l' as [|v' r']; [symmetry in P; apply Permutation_nil in P; discriminate P|].
    destruct (max_in v r) as [M [U V]], (max_in v' r') as [M' [U' V']]. apply Z.le_antisymm.
    + assert (I : In (fold_left Z.max r v) (v' :: r')).
      { apply (Permutation_in _ P). destruct M as [M|M]; [left; symmetry; exact M|right; exact M]. }
      destruct I as [I|I]; [rewrite <- I; exact U'|apply V'; exact I].
    + assert (I : In (fold_left Z.max r' v') (v :: r)).
      { apply (Permutation_in _ (Permutation_sym P)). destruct M' as [M'|M']; [left; symmetry; exact M'|right; exact M']. }
      destruct I as [I|I]; [rewrite <- I; exact U|apply V; exact I].
  - rewrite (Permutation_length P). f_equal. clear t. induction P; cbn [fold_right]; lia.
Qed.

(** Layers for tests. *)
Definition test_pool (d : nat) (t : string) (a : pool_args) (input : sshape) : result pool_layer :=
  L0 <- pool_init d t a ;; pool_build L0 input.

Lemma test_pool_built d t a input L : test_pool d t a input = Ok L -> pooling_built d t a input L.
Proof.
  unfold test_pool, pooling_built. destruct (pool_init d t a) as [L0|]; [|discriminate]. cbn [bind]. intros B. exists L0. split; [reflexivity|exact B].
Qed.

Definition pooling_fails_to_commute (tin tout : tensor Z -> result (tensor Z)) (R : result pool_layer) (x : tensor Z) : bool :=
  match R with Ok L => negb (commutes_b tin tout (pool_call L) x) | Err _ => false end.

Lemma pooling_fails_to_commute_ok tin tout d t a input x :
  pooling_fails_to_commute tin tout (test_pool d t a input) x = true ->
  exists L, pooling_built d t a input L /\ ~ commutes_at tin tout (pool_call L) x.
Proof.
  unfold pooling_fails_to_commute. destruct (test_pool d t a input) as [L|] eqn:T; [|discriminate]. intros N.
  exists L. split; [apply test_pool_built; exact T|]. intros C. apply commutes_b_ok in C. rewrite C in N. discriminate N.
Qed.

Definition pooling_does_commute (tin tout : tensor Z -> result (tensor Z)) (R : result pool_layer) (x : tensor Z) : bool :=
  match R with
  | Ok L => match tin x, pool_call L x with Ok _, Ok _ => commutes_b tin tout (pool_call L) x | _, _ => false end
  | Err _ => false
  end.

(** A signal with values of both signs. *)
Definition signed_signal (s : list nat) : tensor Z := tab s (fun j => Z.sub (at_ (some_signal s) j) 31).

Definition pooling (name H : string) (k : size_arg) (s : option size_arg) (p : option (option string)) : pool_args :=
  mkPoolArgs (ByName name) (Some H) k s p "channels_last" false.
