(** Several threads that call one convolution layer.  [call] is wrapped by
    [backup_and_restore] (misc.py:1-16), which writes to the layer's attributes kernel, bias
    and filters, so that calls that overlap see each other's writes.  Here a call is cut into
    the reads and writes of these three attributes, each of which is one step; between two
    steps of one thread any number of steps of other threads may happen.  What a thread
    computes between its reads and writes concerns its own variables only
    ([group_transforms] is not changed by calls). *)
From Verif Require Export Layers.
Local Open Scope string_scope.

Section Threads.
Context {A : Type} {RA : Arith A}.

(** The dictionary [backup] of misc.py:8. *)
Definition backup : Type := option (tensor A) * option (tensor A) * nat.

(** Where a thread is in its call, with the values of its local variables. *)
Inductive point : Type :=
| Called (x : tensor A)
| SavedKernel (x k : tensor A)
| SavedBias (x k : tensor A) (b : option (tensor A))
| Saved (x : tensor A) (old : backup)
| GivenKernel (x : tensor A) (old : backup) (k : tensor A)
| GivenBias (x : tensor A) (old : backup) (k : tensor A) (b : option (tensor A))
| Prepared (old : backup) (x k : tensor A) (b : option (tensor A)) (f : nat)
| AssignedKernel (old : backup) (x : tensor A) (b : option (tensor A)) (f : nat)
| AssignedBias (old : backup) (x : tensor A) (f : nat)
| Assigned (old : backup) (x : tensor A)
| Convolved (old : backup) (y : tensor A)
| HasFilters (old : backup) (y : tensor A) (f : nat)
| Outputs (old : backup) (y : tensor A)
| RestoredKernel (old : backup) (y : tensor A)
| RestoredBias (old : backup) (y : tensor A)
| Returned (y : tensor A)
| Raised (e : exn).

(** Keras' check of [input_spec] before [call], as in [conv_apply]. *)
Definition accepted (L : conv_layer A) (x : tensor A) : bool :=
  if (rank x <? gt_dims (cl_gt L) + 2)%nat then false
  else match cl_channels L with
       | Some c => (nth (if String.eqb (cl_format L) "channels_last" then rank x - 1 else 1) (shape x) 0 =? c)%nat
       | None => true
       end.

Definition set_kernel (L : conv_layer A) (k : option (tensor A)) : conv_layer A := cl_set_weights L k (cl_bias L) (cl_filters L).
Definition set_bias (L : conv_layer A) (b : option (tensor A)) : conv_layer A := cl_set_weights L (cl_kernel L) b (cl_filters L).
Definition set_filters (L : conv_layer A) (f : nat) : conv_layer A := cl_set_weights L (cl_kernel L) (cl_bias L) f.

(** One step of a thread: the layer and the thread afterwards.
    - misc.py:8: the three attributes are read and saved;
    - conv2d.py:61-63 (and the same lines of the other classes): they are read as arguments
      of [prepare_call], whose results are then assigned to them;
    - conv2d.py:64, Keras' BaseConv.call: the kernel is read for the convolution, then
      [filters] for the shape of the bias, then the bias; conv2d.py:65 uses neither;
    - misc.py:10-11: the three attributes are set to the saved values.
    If something raises, the rest is skipped. *)
Definition step (L : conv_layer A) (p : point) : conv_layer A * point :=
  match p with
  | Called x =>
      if accepted L x
      then match cl_kernel L with
           | Some k => (L, SavedKernel x k)
           | None => (L, Raised AttributeError)
           end
      else (L, Raised ValueError)
  | SavedKernel x k => (L, SavedBias x k (cl_bias L))
  | SavedBias x k b => (L, Saved x (Some k, b, cl_filters L))
  | Saved x old =>
      match cl_kernel L with
      | Some k => (L, GivenKernel x old k)
      | None => (L, Raised AttributeError)
      end
  | GivenKernel x old k => (L, GivenBias x old k (cl_bias L))
  | GivenBias x old k b =>
      match prepare_call (cl_gt L) k b (cl_filters L) x with
      | Ok (k, b, f, x) => (L, Prepared old x k b f)
      | Err e => (L, Raised e)
      end
  | Prepared old x k b f => (set_kernel L (Some k), AssignedKernel old x b f)
  | AssignedKernel old x b f => (set_bias L b, AssignedBias old x f)
  | AssignedBias old x f => (set_filters L f, Assigned old x)
  | Assigned old x =>
      match cl_kernel L with
      | Some k =>
          match in_format (cl_format L)
                  (fun x => if gt_transpose (cl_gt L)
                            then conv_transpose_last x k (cl_strides L) (cl_dilation L) (cl_padding L)
                            else conv_last x k (cl_strides L) (cl_dilation L) (cl_padding L)) x with
          | Ok y => (L, Convolved old y)
          | Err e => (L, Raised e)
          end
      | None => (L, Raised AttributeError)
      end
  | Convolved old y => (L, HasFilters old y (cl_filters L))
  | HasFilters old y f =>
      match (y <- add_bias (cl_format L) f (cl_bias L) y ;;
             restore_group_axis (cl_gt L) (tmap (cl_activation L) y)) with
      | Ok y => (L, Outputs old y)
      | Err e => (L, Raised e)
      end
  | Outputs old y => (set_kernel L (fst (fst old)), RestoredKernel old y)
  | RestoredKernel old y => (set_bias L (snd (fst old)), RestoredBias old y)
  | RestoredBias old y => (set_filters L (snd old), Returned y)
  | Returned y => (L, Returned y)
  | Raised e => (L, Raised e)
  end.

(** The layer and all threads; a schedule says which thread makes the next step. *)
Definition state : Type := conv_layer A * list point.

Definition thread_step (st : state) (i : nat) : state :=
  match nth_error (snd st) i with
  | Some p => let '(L, p) := step (fst st) p in (L, upd i p (snd st))
  | None => st
  end.

Definition execute (schedule : list nat) (st : state) : state := fold_left thread_step schedule st.

(** Is the thread between the first and the last step of its call? *)
Definition under_way (p : point) : bool :=
  match p with Called _ | Returned _ | Raised _ => false | _ => true end.

(** The threads behave as with a lock: no thread makes a step while another one is inside
    its call. *)
Fixpoint one_at_a_time (schedule : list nat) (st : state) : Prop :=
  match schedule with
  | [] => True
  | i :: schedule =>
      (forall j p, j <> i -> nth_error (snd st) j = Some p -> under_way p = false) /\
      one_at_a_time schedule (thread_step st i)
  end.

End Threads.

Arguments backup A : clear implicits.
Arguments point A : clear implicits.
Arguments state A : clear implicits.
