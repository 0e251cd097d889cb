(** The whole output of pattern-make: used in statements only. *)
From Coq Require Import String.
From Verif Require Import PyStr Defs UrlLib ParseUtils Spec Trees Cluster Patterns Matcher Maker Format Cmd Observe JsonSpec.

(** what is printed about one cluster: its structure, its patterns, its URLs *)
Record block := BL { b_meta : url_meta; b_patterns : list str; b_urls : list str }.
Definition b_text (b : block) : str := pack (b_meta b) (b_patterns b).
(** the number of URL paths among the URLs *)
Definition path_dec : forall a b : option (url_meta * list str), {a = b} + {a <> b}.
Proof. repeat decide equality. Defined.
Definition b_count (nv : str -> bool) (b : block) : nat := length (nodup path_dec (map (url_path nv) (b_urls b))).
(** the records of the block in one of the formats *)
Definition shows (nv : str -> bool) (f : fmt) (b : block) (rs : list str) : Prop :=
  match f with
  | FPattern => rs = [b_text b]
  | FCluster => rs = b_text b :: map (fun url => 9%N :: url) (b_urls b)
  | FInline => rs = map (fun url => b_text b ++ 9%N :: url) (b_urls b)
  | FJson => exists r, rs = [r] /\
      json_read r = Some [(u "ptn", JStr (b_text b)); (u "cnt", JInt (Z.of_nat (b_count nv b)))]
  | FNull => rs = []
  end.
(** the URLs in the input *)
Definition line_urls (nv : str -> bool) (lines : list str) : list str :=
  flat_map (fun line => match kind_of_line nv line with LUrl url => [url] | _ => [] end) lines.
