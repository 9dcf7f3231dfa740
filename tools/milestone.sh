#!/bin/sh
# Regenerate project file, property list and manifest, then commit: milestone.sh "message"
cd "$(dirname "$0")/.." || exit 1
python3 tools/gen_properties.py && sh tools/gen_project.sh && python3 tools/gen_manifest.py && python3 tools/gen_design.py && git add -A && git commit -qm "$1" && git log --oneline | head -1
