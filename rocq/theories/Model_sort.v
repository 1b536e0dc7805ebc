(** Model of sort.hh and simd_sort.hh.  Definitions only.
    [comp] is the comparison passed by the caller; the overloads without one use operator <, which is
    the instance [comp := (fun x y => x < y)].  An array argument [a + off] is the list [a] with the
    offset [off].  [int] variables are [nat]; sums that could exceed INT_MAX are checked. *)
From Verif Require Import Cpp.

Definition int_max_ok (x : nat) : bool := (Z.of_nat x <=? 2147483647)%Z.

(** sort.hh:27-28 (and 16-17) the inner loop; state (j, a).  The loop variable decreases, so i+1 rounds
    of fuel suffice. *)
Definition insertion_inner {A} (comp : A -> A -> bool) (off i : nat) (t : A) (a : list A) : res (nat * list A) :=
  while_ (S i)
    (fun '(j, a) => if 0 <? j then (x <- rd a (off + (j - 1)) ;; Ok (comp t x)) else Ok false)
    (fun '(j, a) =>
       x <- rd a (off + (j - 1)) ;;
       a <- wr a (off + j) x ;;
       Ok (j - 1, a))
    (i, a).

(** sort.hh:22-31 insertion_sort(a, n, comp); sort.hh:11-20 insertion_sort(a, n) with comp = operator < *)
Definition insertion_sort {A} (comp : A -> A -> bool) (off n : nat) (a : list A) : res (list A) :=
  for_up 1 n (fun i a =>
    t <- rd a (off + i) ;;
    '(j, a) <- insertion_inner comp off i t a ;;
    wr a (off + j) t) a.

(** sort.hh:33-46 insertion_sort(p, a, n).  [p] starts indeterminate; INDEX can hold 0..n-1. *)
Definition insertion_sort_index {A} (lt : A -> A -> bool) (n : nat) (p : list (option nat)) (a : list A)
    : res (list (option nat) * list A) :=
  p <- wru p 0 0 ;;
  for_up 1 n (fun i '(p, a) =>
    t <- rd a i ;;
    '(j, p, a) <- while_ (S i)
      (fun '(j, p, a) => if 0 <? j then (x <- rd a (j - 1) ;; Ok (lt t x)) else Ok false)
      (fun '(j, p, a) =>
         x <- rd a (j - 1) ;;
         a <- wr a j x ;;
         q <- rdu p (j - 1) ;;
         p <- wru p j q ;;
         Ok (j - 1, p, a))
      (i, p, a) ;;
    a <- wr a j t ;;
    p <- wru p j i ;;
    Ok (p, a)) (p, a).

(** simd_sort.hh:11-17 vorder: the permutation only (the argument is passed by value) *)
Definition vorder {A} (lt : A -> A -> bool) (WIDTH : nat) (a : list A) : res (list (option nat)) :=
  '(p, _) <- insertion_sort_index lt WIDTH (uninit nat WIDTH) a ;;
  Ok p.
(** simd_sort.hh:19-24 vsort *)
Definition vsort {A} (lt : A -> A -> bool) (WIDTH : nat) (a : list A) : res (list A) :=
  insertion_sort lt 0 WIDTH a.

(** sort.hh:52-61 MergeSort::merge; [tmp] is the member array, the result its new content *)
Definition merge {A} (comp : A -> A -> bool) (a : list A) (n left right fin : nat) (tmp : list (option A))
    : res (list (option A)) :=
  let right := if n <? right then n else right in
  let fin := if n <? fin then n else fin in
  '(_, _, tmp) <- for_up left fin (fun k '(i, j, tmp) =>
     c <- (if right <=? i then Ok true
           else if j <? fin then (y <- rd a j ;; x <- rd a i ;; Ok (comp y x))
           else Ok false) ;;
     if (c : bool) then
       y <- rd a j ;; tmp <- wru tmp k y ;; Ok (i, S j, tmp)
     else
       x <- rd a i ;; tmp <- wru tmp k x ;; Ok (S i, j, tmp)) (left, right, tmp) ;;
  Ok tmp.

(** sort.hh:63-74 MergeSort::operator().  [tmp] holds MAX_N elements, possibly indeterminate.
    The doubling loop gets n+1 rounds of fuel. *)
Definition merge_sort {A} (M : nat) (comp : A -> A -> bool) (n : nat) (tmp : list (option A)) (a : list A) : res (list A) :=
  a <- for_step 0 n M (fun i a =>
     require (int_max_ok (i + M)) ;;;
     insertion_sort comp i (if n <? i + M then n - i else M) a) a ;;
  '(_, _, a) <- while_ (S n)
     (fun '(l, tmp, a) => Ok (l <? n))
     (fun '(l, tmp, a) =>
        tmp <- for_step 0 n (2 * l) (fun i tmp =>
           require (int_max_ok (i + 2 * l)) ;;;
           merge comp a n i (i + l) (i + 2 * l) tmp) tmp ;;
        a <- for_up 0 n (fun i a => x <- rdu tmp i ;; wr a i x) a ;;
        require (int_max_ok (l * 2)) ;;;
        Ok (l * 2, tmp, a))
     (M, tmp, a) ;;
  Ok a.
