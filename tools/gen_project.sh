#!/bin/sh
# Regenerate rocq/_CoqProject from the files in rocq/theories (flags unchanged).
cd "$(dirname "$0")/../rocq" || exit 1
{ echo "-Q theories Verif"; ls theories/*.v; } > _CoqProject
