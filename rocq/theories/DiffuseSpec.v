(** Specification vocabulary for diffusion, conductivity and the contrast factor. *)
From Coq Require Import List Arith ZArith Reals Bool.
From Verif Require Import Num LinSpec Outcome Gray GraySpec.
Import ListNotations.
Open Scope R_scope.

(** The two to four pixels next to (x, y). *)
Definition neighbours (w h x y : nat) : list (nat * nat) :=
  (if (x + 1 <? w)%nat then [((x + 1)%nat, y)] else []) ++ (if (1 <=? x)%nat then [((x - 1)%nat, y)] else []) ++
  (if (y + 1 <? h)%nat then [(x, (y + 1)%nat)] else []) ++ (if (1 <=? y)%nat then [(x, (y - 1)%nat)] else []).
Fixpoint rsum_list {A} (f : A -> R) (l : list A) : R := match l with [] => 0 | x :: l => f x + rsum_list f l end.
(** Explicit diffusion: every neighbour attracts the pixel with the mean of the two conductivities. *)
Definition diffused (Lt Lflow : gray RNum) (s : R) (x y : nat) : R :=
  pixel Lt x y + s * rsum_list (fun '(a, b) => (pixel Lflow x y + pixel Lflow a b) / 2 * (pixel Lt a b - pixel Lt x y))
    (neighbours (g_width Lt) (g_height Lt) x y).

(** Perona and Malik's second conductivity for the contrast factor [k] and the gradient (lx, ly). *)
Definition conductivity (k lx ly : R) : R := 1 / (1 + (lx * lx + ly * ly) / (k * k)).

(** Length of the gradient at a pixel. *)
Definition gradient (Lx Ly : gray RNum) (p : nat * nat) : R :=
  sqrt (pixel Lx (fst p) (snd p) * pixel Lx (fst p) (snd p) + pixel Ly (fst p) (snd p) * pixel Ly (fst p) (snd p)).
(** The pixels that are not on the border. *)
Definition inner (w h : nat) : list (nat * nat) := flat_map (fun y => map (fun x => (x, y)) (seq 1 (w - 2))) (seq 1 (h - 2)).
Definition edges (Lx Ly : gray RNum) : list (nat * nat) :=
  filter (fun p => negb (Reqb (gradient Lx Ly p) 0)) (inner (g_width Lx) (g_height Lx)).
(** How many of the inner pixels with a gradient have one below the [k]-th of [bins] equal parts of [top]
    (all of them for the last part). *)
Definition count_below (Lx Ly : gray RNum) (top : R) (bins k : nat) : nat :=
  length (filter (fun p => Rltb (gradient Lx Ly p * INR bins) (INR k * top) || (bins <=? k)%nat) (edges Lx Ly)).
Definition largest_gradient (Lx Ly : gray RNum) (top : R) : Prop :=
  (exists p, In p (inner (g_width Lx) (g_height Lx)) /\ gradient Lx Ly p = top) /\
  forall p, In p (inner (g_width Lx) (g_height Lx)) -> gradient Lx Ly p <= top.

(** The sum over the pixels of the squared distance from the value [v]; over the number of pixels it is the variance
    when [v] is the mean. *)
Definition spread (v : R) (g : gray RNum) : R :=
  rsum (g_height g) (fun y => rsum (g_width g) (fun x => (pixel g x y - v) * (pixel g x y - v))).
(** Steps of explicit diffusion one after the other, with the same conductivities. *)
Inductive diffuses (flow : gray RNum) : list R -> gray RNum -> gray RNum -> Prop :=
  | diffuses_none g : diffuses flow [] g g
  | diffuses_step t steps g mid out : image_of (g_width g) (g_height g) (diffused g flow t) mid -> diffuses flow steps mid out -> diffuses flow (t :: steps) g out.
