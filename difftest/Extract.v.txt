From Verif Require Import Parser Lexer Token Iter Strings.
From Coq Require Import Extraction ExtrOcamlBasic ExtrOcamlNatInt ExtrOcamlNativeString.
Extraction Language OCaml.
Extraction "model.ml" render.
