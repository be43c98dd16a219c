(** Model of /repo/groco/groups/group.py (class [Group]). *)
From Verif Require Export Utils.

(** The attributes of a [Group] object (group.py:39-46).  [parent] is only used
    during construction (and inside the action closure), so it is an argument
    of [group_init] rather than a field.  [_action] is a function that works for
    every element type. *)
Record group := mkGroup {
  g_name : string;
  g_order : nat;
  g_composition : tensor nat;
  g_inverses : list nat;
  g_subgroup : list (string * list nat);
  g_cosets : list (string * list nat);
  g__action : forall (A : Type) (ZA : Zero A), tensor A -> list Z -> Z -> result (tensor A)
}.

Definition action_fun := forall (A : Type) (ZA : Zero A), tensor A -> list Z -> Z -> result (tensor A).

(** [ops.cast(rows, "int32")] of a nested list: ragged lists are rejected. *)
Definition cast2 (rows : list (list nat)) : result (tensor nat) :=
  match rows with
  | [] => Ok (mkTensor [0] [])
  | r0 :: _ =>
      guard forallb (fun r => List.length r =? List.length r0) rows else ValueError ;;
      Ok (mkTensor [List.length rows; List.length r0] (List.concat rows))
  end.

(** [composition[r]] as a Python list, and [composition[r][c]]; an index that is too large raises as
    in NumPy and PyTorch (TensorFlow raises an error of its own, JAX returns the last entry). *)
Definition row (t : tensor nat) (r : nat) : result (list nat) :=
  match shape t with
  | [m; n] => if r <? m then Ok (map (fun c => at_ t [r; c]) (seq 0 n)) else Err IndexError
  | _ => Err IndexError
  end.

Definition entry (t : tensor nat) (r c : nat) : result nat :=
  match shape t with
  | [m; n] => if (r <? m) && (c <? n) then Ok (at_ t [r; c]) else Err IndexError
  | _ => Err IndexError
  end.

(** group.py:222-248 [_external_to_internal_indices]; [ext] is
    [self.parent.subgroup[self.name]]. *)
Definition external_to_internal (ext : list nat) (order : nat) (external_indices : list nat)
  : result (list nat) :=
  mapM (zip_get ext (seq 0 order)) external_indices.

(** group.py:165-171 [_compute_inverses] *)
Definition compute_inverses (order : nat) (composition : tensor nat) (inverses : option (list nat))
  : result (list nat) :=
  match inverses with
  | Some l => Ok l
  | None =>
      mapM (fun r =>
              cs <- mapM (fun c => e <- entry composition r c ;; Ok (c, e)) (seq 0 order) ;;
              match filter (fun p => snd p =? 0) cs with
              | [] => Err IndexError
              | (c, _) :: _ => Ok c
              end) (seq 0 order)
  end.

(** group.py:173-185 [_compute_composition] *)
Definition compute_composition (name : string) (order : nat) (parent : option group)
  (composition : option (list (list nat))) : result (tensor nat) :=
  match composition with
  | Some c => cast2 c
  | None =>
      match parent with
      | None => Err AttributeError
      | Some p =>
          ext <- dict_get (g_subgroup p) name ;;
          c <- take (g_composition p) (vec ext) 0 ;;
          c <- take c (vec ext) 1 ;;
          rows <- mapM (fun r => l <- row c r ;; external_to_internal ext order l) (seq 0 order) ;;
          cast2 rows
      end
  end.

(** group.py:198-208 [_compute_subgroup] *)
Definition compute_subgroup (name : string) (order : nat) (parent : option group)
  (subgroup : option (list (string * list nat))) : result (list (string * list nat)) :=
  match subgroup with
  | Some d => Ok d
  | None =>
      match parent with
      | None => Err AttributeError
      | Some p =>
          this <- dict_get (g_subgroup p) name ;;
          mapM (fun kv => l <- external_to_internal this order (snd kv) ;; Ok (fst kv, l))
               (filter (fun kv => forallb (fun i => mem i this) (snd kv)) (g_subgroup p))
      end
  end.

(** group.py:210-220 [_compute_cosets]; [subgroup] is the already computed
    [self.subgroup]. *)
Definition compute_cosets (name : string) (order : nat) (parent : option group)
  (subgroup : list (string * list nat)) (cosets : option (list (string * list nat)))
  : result (list (string * list nat)) :=
  match cosets with
  | Some d => Ok d
  | None =>
      match parent with
      | None => Err AttributeError
      | Some p =>
          this <- dict_get (g_subgroup p) name ;;
          mapM (fun kv =>
                  l <- external_to_internal this order (filter (fun i => mem i this) (snd kv)) ;;
                  Ok (fst kv, l))
               (filter (fun kv => existsb (fun kv' => String.eqb (fst kv) (fst kv')) subgroup)
                       (g_cosets p))
      end
  end.

(** group.py:187-196 [_compute_action]; the closure looks the parent up when it
    is called. *)
Definition compute_action (name : string) (parent : option group) (action : option action_fun)
  : action_fun :=
  match action with
  | Some a => a
  | None => fun A ZA signal spatial_axes new_group_axis =>
      match parent with
      | None => Err AttributeError
      | Some p =>
          signal <- g__action p A ZA signal spatial_axes new_group_axis ;;
          ext <- dict_get (g_subgroup p) name ;;
          take signal (vec ext) new_group_axis
      end
  end.

(** group.py:28-46 [Group.__init__] *)
Definition group_init (name : string) (order : nat)
  (inverses : option (list nat)) (composition : option (list (list nat)))
  (subgroup cosets : option (list (string * list nat)))
  (action : option action_fun) (parent : option group) : result group :=
  comp <- compute_composition name order parent composition ;;
  inv <- compute_inverses order comp inverses ;;
  sub <- compute_subgroup name order parent subgroup ;;
  cos <- compute_cosets name order parent sub cosets ;;
  Ok (mkGroup name order comp inv sub cos (compute_action name parent action)).

(** group.py:250-256 [parse_subgroup(s)]: [None] stays [None], the empty string
    means the group itself. *)
Definition parse_subgroup (G : group) (s : option string) : option string :=
  match s with
  | None => None
  | Some s => if String.eqb s "" then Some (g_name G) else Some s
  end.

(** [self.subgroup[name]] where the name may be [None]. *)
Definition subgroup_get (G : group) (s : option string) : result (list nat) :=
  match s with
  | None => Err KeyError
  | Some s => dict_get (g_subgroup G) s
  end.

Section Action.
Context {A : Type} {ZA : Zero A}.

(** group.py:87-97 [_action_on_grid] *)
Definition action_on_grid (G : group) (signal : tensor A) (new_group_axis : Z)
  (spatial_axes : list Z) (acting_group : option string) : result (tensor A) :=
  signal <- g__action G A ZA signal spatial_axes new_group_axis ;;
  idx <- subgroup_get G acting_group ;;
  take signal (vec idx) new_group_axis.

(** group.py:137-151 [upsample].  A tuple slice of the shape never fails. *)
Definition upsample (G : group) (signal : tensor A) (group_axis : Z) (domain_group : option string)
  : result (tensor A) :=
  idx <- subgroup_get G domain_group ;;
  let zs := zeros (py_upto (shape signal) group_axis ++ [1]
                   ++ py_from (shape signal) (group_axis + 1)) in
  filled <- mapM (fun i => if mem i idx
                           then p <- zip_get idx (seq 0 (List.length idx)) i ;;
                                take signal (vec [p]) group_axis
                           else Ok zs) (seq 0 (g_order G)) ;;
  concatenate filled group_axis.

(** group.py:153-163 [_composition_flat_indices] *)
Definition composition_flat_indices (G : group) (acting_group domain_group : option string)
  : result (list nat) :=
  act <- subgroup_get G acting_group ;;
  inv <- mapM (fun i => py_nth (g_inverses G) (Z.of_nat i)) act ;;
  c <- take (g_composition G) (vec inv) 0 ;;
  dom <- subgroup_get G domain_group ;;
  c <- take c (vec dom) 1 ;;
  rows <- mapM (row c) (seq 0 (List.length act)) ;;
  Ok (flat_map (fun ir => map (fun v => fst ir * g_order G + v) (snd ir))
               (combine (seq 0 (List.length act)) rows)).

(** group.py:99-135 [_action_on_group] *)
Definition action_on_group (G : group) (signal : tensor A) (new_group_axis : Z)
  (spatial_axes : list Z) (acting_group : option string) (group_axis : Z)
  (domain_group : option string) : result (tensor A) :=
  act <- subgroup_get G acting_group ;;
  dom <- subgroup_get G domain_group ;;
  signal <- (if List.length dom <? g_order G
             then upsample G signal group_axis domain_group else Ok signal) ;;
  signal <- action_on_grid G signal group_axis spatial_axes acting_group ;;
  signal <- merge_axes signal group_axis (group_axis + 1) ;;
  idx <- composition_flat_indices G acting_group domain_group ;;
  signal <- take signal (vec idx) group_axis ;;
  signal <- split_axes signal (List.length act) group_axis ;;
  moveaxis signal group_axis new_group_axis.

(** group.py:48-85 [action].  [group_axis=None] with a signal on the group raises as
    soon as it is used as a number (upsample, expand_dims or [group_axis + 1]), after the
    two lookups of group.py:116-117; the exception is TypeError here, in the library it can
    be another one of the backend. *)
Definition action (G : group) (signal : tensor A) (spatial_axes : list Z) (new_group_axis : Z)
  (group_axis : option Z) (acting_group domain_group : option string) : result (tensor A) :=
  let acting_group := parse_subgroup G acting_group in
  let domain_group := parse_subgroup G domain_group in
  match domain_group with
  | None => action_on_grid G signal new_group_axis spatial_axes acting_group
  | Some _ =>
      match group_axis with
      | None => _ <- subgroup_get G acting_group ;; _ <- subgroup_get G domain_group ;; Err TypeError
      | Some ga => action_on_group G signal new_group_axis spatial_axes acting_group ga domain_group
      end
  end.

End Action.
