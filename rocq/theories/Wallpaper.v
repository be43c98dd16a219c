(** Model of /repo/groco/groups/wallpaper_groups.py. *)
From Verif Require Export Group.

Section Actions.
Context {A : Type} {ZA : Zero A}.

(** The four lines that open every action function except P1's
    (e.g. wallpaper_groups.py:7-12): unpack the spatial axes, add the group axis
    and shift the spatial axes that lie to its right. *)
Definition open_action (signal : tensor A) (spatial_axes : list Z) (nga : Z)
  : result (tensor A * Z * Z) :=
  match spatial_axes with
  | [h; w] =>
      signal <- expand_dims signal nga ;;
      let h := if (nga <=? h)%Z then (h + 1)%Z else h in
      let w := if (nga <=? w)%Z then (w + 1)%Z else w in
      Ok (signal, h, w)
  | _ => Err ValueError
  end.

(** wallpaper_groups.py:16-17, 36-37: [axes = list(range(ndim))] with the
    entries at [h] and [w] exchanged. *)
Definition swapped_axes (r : nat) (h w : Z) : result (list nat) :=
  let axes := seq 0 r in
  x <- py_nth axes w ;;
  y <- py_nth axes h ;;
  axes <- py_set axes h x ;;
  py_set axes w y.

(** wallpaper_groups.py:6-22 *)
Definition P4M_action (signal : tensor A) (spatial_axes : list Z) (nga : Z) : result (tensor A) :=
  p <- open_action signal spatial_axes nga ;;
  let '(signal, h, w) := p in
  f <- flip signal w ;;
  signal <- concatenate [signal; f] nga ;;
  f <- flip signal h ;;
  signal <- concatenate [signal; f] nga ;;
  axes <- swapped_axes (rank signal) h w ;;
  t <- transpose signal axes ;;
  signal <- concatenate [signal; t] nga ;;
  take signal (vec [0; 5; 3; 6; 1; 4; 2; 7]) nga.

(** wallpaper_groups.py:25-42 *)
Definition P4_action (signal : tensor A) (spatial_axes : list Z) (nga : Z) : result (tensor A) :=
  p <- open_action signal spatial_axes nga ;;
  let '(signal, h, w) := p in
  f <- flip signal w ;;
  f <- flip f h ;;
  signal <- concatenate [signal; f] nga ;;
  axes <- swapped_axes (rank signal) h w ;;
  t <- transpose signal axes ;;
  t <- flip t h ;;
  signal <- concatenate [signal; t] nga ;;
  take signal (vec [0; 2; 1; 3]) nga.

(** wallpaper_groups.py:45-56 *)
Definition P2MM_action (signal : tensor A) (spatial_axes : list Z) (nga : Z) : result (tensor A) :=
  p <- open_action signal spatial_axes nga ;;
  let '(signal, h, w) := p in
  f <- flip signal w ;;
  signal <- concatenate [signal; f] nga ;;
  f <- flip signal h ;;
  concatenate [signal; f] nga.

(** wallpaper_groups.py:59-69 *)
Definition PMh_action (signal : tensor A) (spatial_axes : list Z) (nga : Z) : result (tensor A) :=
  p <- open_action signal spatial_axes nga ;;
  let '(signal, h, w) := p in
  f <- flip signal h ;;
  concatenate [signal; f] nga.

(** wallpaper_groups.py:72-82 *)
Definition PMw_action (signal : tensor A) (spatial_axes : list Z) (nga : Z) : result (tensor A) :=
  p <- open_action signal spatial_axes nga ;;
  let '(signal, h, w) := p in
  f <- flip signal w ;;
  concatenate [signal; f] nga.

(** wallpaper_groups.py:85-95 *)
Definition P2_action (signal : tensor A) (spatial_axes : list Z) (nga : Z) : result (tensor A) :=
  p <- open_action signal spatial_axes nga ;;
  let '(signal, h, w) := p in
  f <- flip signal w ;;
  f <- flip f h ;;
  concatenate [signal; f] nga.

(** wallpaper_groups.py:98-100 *)
Definition P1_action (signal : tensor A) (spatial_axes : list Z) (nga : Z) : result (tensor A) :=
  expand_dims signal nga.

End Actions.

Local Open Scope string_scope.

(** wallpaper_groups.py:103-136 *)
Definition P4M_init : result group := group_init "P4M" 8
  (Some [0; 3; 2; 1; 4; 5; 6; 7])
  (Some [[0; 1; 2; 3; 4; 5; 6; 7];
         [1; 2; 3; 0; 5; 6; 7; 4];
         [2; 3; 0; 1; 6; 7; 4; 5];
         [3; 0; 1; 2; 7; 4; 5; 6];
         [4; 7; 6; 5; 0; 3; 2; 1];
         [5; 4; 7; 6; 1; 0; 3; 2];
         [6; 5; 4; 7; 2; 1; 0; 3];
         [7; 6; 5; 4; 3; 2; 1; 0]])
  (Some [("P4M", [0; 1; 2; 3; 4; 5; 6; 7]);
         ("P4", [0; 1; 2; 3]);
         ("P2MM", [0; 4; 6; 2]);
         ("PMw", [0; 4]);
         ("PMh", [0; 6]);
         ("P2", [0; 2]);
         ("P1", [0])])
  (Some [("P4M", [0]);
         ("P4", [0; 4]);
         ("P2MM", [0; 1]);
         ("PMw", [0; 1; 2; 3]);
         ("PMh", [0; 1; 2; 3]);
         ("P2", [0; 1; 4; 5]);
         ("P1", [0; 1; 2; 3; 4; 5; 6; 7])])
  (Some (@P4M_action)) None.

(** wallpaper_groups.py:137-145 *)
Definition P4_init : result group := group_init "P4" 4
  (Some [0; 3; 2; 1])
  (Some [[0; 1; 2; 3]; [1; 2; 3; 0]; [2; 3; 0; 1]; [3; 0; 1; 2]])
  (Some [("P4", [0; 1; 2; 3]); ("P2", [0; 2]); ("P1", [0])])
  (Some [("P4", [0]); ("P2", [0; 1]); ("P1", [0; 1; 2; 3])])
  (Some (@P4_action)) None.

(** wallpaper_groups.py:146-154 *)
Definition P2MM_init : result group := group_init "P2MM" 4
  (Some [0; 1; 2; 3])
  (Some [[0; 1; 2; 3]; [1; 0; 3; 2]; [2; 3; 0; 1]; [3; 2; 1; 0]])
  (Some [("P2MM", [0; 1; 2; 3]); ("PMh", [0; 2]); ("PMw", [0; 1]); ("P1", [0])])
  (Some [("P2MM", [0]); ("PMh", [0; 1]); ("PMw", [0; 2]); ("P1", [0; 1; 2; 3])])
  (Some (@P2MM_action)) None.

(** wallpaper_groups.py:155-163 *)
Definition PMh_init : result group := group_init "PMh" 2
  (Some [0; 1]) (Some [[0; 1]; [1; 0]])
  (Some [("PMh", [0; 1]); ("P1", [0])])
  (Some [("PMh", [0]); ("P1", [0; 1])])
  (Some (@PMh_action)) None.

(** wallpaper_groups.py:164-172 *)
Definition PMw_init : result group := group_init "PMw" 2
  (Some [0; 1]) (Some [[0; 1]; [1; 0]])
  (Some [("PMw", [0; 1]); ("P1", [0])])
  (Some [("PMw", [0]); ("P1", [0; 1])])
  (Some (@PMw_action)) None.

(** wallpaper_groups.py:173-181 *)
Definition P2_init : result group := group_init "P2" 2
  (Some [0; 1]) (Some [[0; 1]; [1; 0]])
  (Some [("P2", [0; 1]); ("P1", [0])])
  (Some [("P2", [0]); ("P1", [0; 1])])
  (Some (@P2_action)) None.

(** wallpaper_groups.py:182-190 *)
Definition P1_init : result group := group_init "P1" 1
  (Some [0]) (Some [[0]])
  (Some [("P1", [0])]) (Some [("P1", [0])])
  (Some (fun A _ => @P1_action A)) None.
