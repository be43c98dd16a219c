(** Model of /repo/groco/layers/padding.py (class [EquivariantPadding]). *)
From Verif Require Export Utils.
Local Open Scope string_scope.

(** [kernel_size] and [strides] arguments: an int or a tuple of ints. *)
Inductive size_arg := One (n : Z) | Tuple (l : list Z).

(** padding.py:48-59: [x if isinstance(x, tuple) else tuple(x for _ in range(dims))] *)
Definition per_axis (dims : nat) (a : size_arg) : list Z :=
  match a with One n => repeat n dims | Tuple l => l end.

(** [str.upper] (ASCII strings). *)
Definition upper_ascii (c : ascii) : ascii :=
  let n := nat_of_ascii c in
  if ((97 <=? n) && (n <=? 122))%nat then ascii_of_nat (n - 32) else c.

Fixpoint upper (s : string) : string :=
  match s with
  | "" => ""
  | String c s' => String (upper_ascii c) (upper s')
  end.

(** [s.endswith(t)] and [s[:-n]] *)
Definition endswith (s t : string) : bool :=
  ((String.length t <=? String.length s)%nat
   && String.eqb (String.substring (String.length s - String.length t) (String.length t) s) t)%bool.

Definition drop_last (n : nat) (s : string) : string := String.substring 0 (String.length s - n) s.

Definition mem_str (s : string) (l : list string) : bool := existsb (String.eqb s) l.

(** padding.py:144-153 [format_padding_option]; an argument that is not a string
    is [None]. *)
Definition format_padding_option (padding : option string) : result string :=
  match padding with
  | None => Err TypeError
  | Some p =>
      guard mem_str (upper p) ["SAME"; "VALID"; "SAME_EQUIV"; "VALID_EQUIV"] else TypeError ;;
      Ok (upper p)
  end.

(** The attributes of the layer (padding.py:43-64).  [pl_pads] is
    [self.equivariant_padding], one (before, after) pair per axis. *)
Record padding_layer := mkPadding {
  pl_option : string;
  pl_built_in : string;
  pl_allow : bool;
  pl_dims : nat;
  pl_strides : list Z;
  pl_kernel : list Z;
  pl_format : string;
  pl_transpose : bool;
  pl_pads : option (list (Z * Z));
  pl_needs : option bool
}.

(** padding.py:32-66 [__init__] *)
Definition padding_init (kernel_size : size_arg) (dimensions : nat) (strides : size_arg)
  (padding : option string) (allow : bool) (data_format : string) (transpose : bool)
  : result padding_layer :=
  opt <- format_padding_option padding ;;
  match padding with
  | None => Err TypeError
  | Some p =>
      Ok (mkPadding opt (if endswith p "_equiv" then drop_last 6 p else p) allow dimensions
                    (per_axis dimensions strides) (per_axis dimensions kernel_size)
                    data_format transpose None None)
  end.

(** Element-wise operation on one-dimensional integer tensors, with
    broadcasting of size one. *)
Definition zipZ (f : Z -> Z -> Z) (a b : list Z) : result (list Z) :=
  if (List.length a =? List.length b)%nat then Ok (map (fun p => f (fst p) (snd p)) (combine a b))
  else match a, b with
       | [x], _ => Ok (map (f x) b)
       | _, [y] => Ok (map (fun x => f x y) a)
       | _, _ => Err BackendError
       end.

Definition relu (l : list Z) : list Z := map (Z.max 0) l.

(** padding.py:102-109 [compute_built_in_padding] *)
Definition compute_built_in_padding (L : padding_layer) (spatial : list Z) : result (list Z) :=
  if mem_str (pl_option L) ["SAME"; "SAME_EQUIV"] then
    d <- zipZ Z.sub (pl_kernel L) (pl_strides L) ;;
    m <- zipZ Z.modulo (map Z.opp spatial) (pl_strides L) ;;
    t <- zipZ Z.add d m ;;
    Ok (relu t)
  else if pl_transpose L then
    d <- zipZ Z.sub (pl_strides L) (pl_kernel L) ;; Ok (relu d)
  else Ok (map (fun _ => 0%Z) (pl_kernel L)).

(** padding.py:111-117 [compute_extra_padding]: extra and total padding *)
Definition compute_extra_padding (L : padding_layer) (spatial built_in : list Z)
  : result (list Z * list Z) :=
  a <- zipZ Z.add spatial built_in ;;
  a <- zipZ Z.sub a (pl_kernel L) ;;
  extra <- zipZ Z.modulo (map Z.opp a) (pl_strides L) ;;
  total <- zipZ Z.add extra built_in ;;
  fix_ <- zipZ Z.mul (map (fun t => (t mod 2)%Z) total) (pl_strides L) ;;
  extra <- zipZ Z.add extra fix_ ;;
  total <- zipZ Z.add extra built_in ;;
  Ok (extra, total).

(** padding.py:97-100 [compute_equivariant_padding] *)
Definition compute_equivariant_padding (L : padding_layer) (spatial : list Z)
  : result (list Z * list Z) :=
  b <- compute_built_in_padding L spatial ;;
  compute_extra_padding L spatial b.

(** padding.py:119-133 [split_padding] *)
Definition split_padding (L : padding_layer) (paddings : list Z) : list (Z * Z) :=
  let p := if String.eqb (pl_format L) "channels_last" then (0 :: paddings ++ [0])%Z
           else (0 :: 0 :: paddings)%Z in
  map (fun x => let after := (x / 2)%Z in (x - after, after)%Z) p.

(** [ops.cast(shape, "int32")]: an unknown size cannot be converted. *)
Definition cast_sizes (s : sshape) : result (list Z) :=
  mapM (fun o => match o with Some n => Ok (Z.of_nat n) | None => Err ValueError end) s.

(** padding.py:155-183: the error that is actually raised.  With option
    SAME_EQUIV the message is built with [self.compute_same_padding], which does
    not exist. *)
Definition padding_error (L : padding_layer) : exn :=
  if String.eqb (pl_option L) "SAME_EQUIV" then AttributeError else ValueError.

Definition set_needs (L : padding_layer) (needs : bool) (pads : option (list (Z * Z))) : padding_layer :=
  mkPadding (pl_option L) (pl_built_in L) (pl_allow L) (pl_dims L) (pl_strides L) (pl_kernel L)
            (pl_format L) (pl_transpose L) pads (Some needs).

(** padding.py:74-95 [build].  Python leaves [equivariant_padding] as it was when
    no padding is needed; it is then never read. *)
Definition padding_build (L : padding_layer) (input_shape : sshape) : result padding_layer :=
  if mem_str (pl_option L) ["SAME"; "VALID"] && pl_allow L
  then Ok (set_needs L false (pl_pads L))
  else
    spatial <- cast_sizes (if String.eqb (pl_format L) "channels_last"
                           then firstn (pl_dims L) (skipn 1 input_shape)
                           else skipn 2 input_shape) ;;
    et <- compute_equivariant_padding L spatial ;;
    let '(extra, total) := et in
    if negb (existsb (fun e => negb (e =? 0)%Z) extra) then Ok (set_needs L false (pl_pads L))
    else if mem_str (pl_option L) ["SAME"; "VALID"] then Err (padding_error L)
    else if existsb (fun t => negb (t mod 2 =? 0)%Z) total then Err (padding_error L)
    else Ok (set_needs L true (Some (split_padding L extra))).

(** padding.py:68-72 [call].  Not built: [needs_padding] is None, which is falsy. *)
Definition padding_call {A} {ZA : Zero A} (L : padding_layer) (inputs : tensor A) : result (tensor A) :=
  match pl_needs L, pl_pads L with
  | Some true, Some pads => pad inputs (map (fun p => (Z.to_nat (fst p), Z.to_nat (snd p))) pads)
  | Some true, None => Err TypeError
  | _, _ => Ok inputs
  end.

(** Attributes the object has (padding.py:43-64). *)
Definition padding_attributes : list string :=
  ["padding_option"; "built_in_padding_option"; "allow_non_equivariance"; "dimensions"; "strides";
   "kernel_sizes"; "data_format"; "transpose"; "equivariant_padding"; "needs_padding"].

(** [getattr] of an attribute, as far as we need it: does it exist? *)
Definition getattr_padding (name : string) : result string :=
  guard mem_str name padding_attributes else AttributeError ;; Ok name.

(** padding.py:135-142 [get_config]: the attributes read, in order. *)
Definition padding_get_config (L : padding_layer) : result (list string) :=
  mapM getattr_padding ["kernel_size"; "strides"; "padding"; "allow_non_equivariance"; "dimensions"].
